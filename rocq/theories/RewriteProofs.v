From Verif Require Import Base RewriteModel RewriteSpec.
Local Open Scope nat_scope.

Section P.
Variable char : Type.
Notation string := (list char).
Notation op_t := (operation char).

Lemma apart_sym (a b : op_t) : apart a b -> apart b a.
Proof. intros (H1 & H2 & H3). repeat split; auto. Qed.
Lemma FOP_perm {A} (R : A -> A -> Prop) : (forall a b, R a b -> R b a) ->
  forall l l', Permutation l l' -> ForallOrdPairs R l -> ForallOrdPairs R l'.
Proof.
  intros Hs l l' P. induction P as [|x l l' P IH|x y l|l l1 l2 P1 IH1 P2 IH2]; intros H; auto.
  - inversion H; subst. constructor; auto. eapply Permutation_Forall; eauto.
  - inversion H as [|? ? F1 F2]; subst. inversion F2 as [|? ? F3 F4]; subst. inversion F1; subst.
    constructor; [constructor; auto|]. constructor; auto.
Qed.

(** ** edited does not depend on the order *)
Lemma flat_at (f : op_t -> nat -> string) i :
  (forall op, offset op <> i -> f op i = []) ->
  forall ops, ForallOrdPairs (fun a b => offset a <> offset b) ops ->
  (forall op, In op ops -> offset op = i -> flat_map (fun op => f op i) ops = f op i)
  /\ ((forall op, In op ops -> offset op <> i) -> flat_map (fun op => f op i) ops = []).
Proof.
  intros Hf. induction ops as [|a ops IH]; intros H; [split; [intros ? []|reflexivity]|].
  inversion H as [|? ? F1 F2]; subst. destruct (IH F2) as [IH1 IH2]. cbn [flat_map]. split.
  - intros op [->|Hin] Ho.
    + rewrite IH2; [apply app_nil_r|]. intros b Hb. rewrite Forall_forall in F1. specialize (F1 b Hb). congruence.
    + rewrite (IH1 op Hin Ho). rewrite Hf; [reflexivity|]. rewrite Forall_forall in F1. specialize (F1 op Hin). congruence.
  - intros Hn. rewrite IH2 by (intros op Hin; apply Hn; now right). rewrite Hf by (apply Hn; now left). reflexivity.
Qed.
Lemma flat_perm (f : op_t -> nat -> string) i :
  (forall op, offset op <> i -> f op i = []) ->
  forall l l', Permutation l l' -> ForallOrdPairs (fun a b => offset a <> offset b) l ->
  flat_map (fun op => f op i) l = flat_map (fun op => f op i) l'.
Proof.
  intros Hf l l' P H. assert (H' : ForallOrdPairs (fun a b => offset a <> offset b) l') by (eapply FOP_perm; eauto; auto).
  destruct (flat_at f i Hf l H) as [A1 A2]. destruct (flat_at f i Hf l' H') as [B1 B2].
  destruct (existsb (fun op => offset op =? i) l) eqn:E.
  - apply existsb_exists in E as (op & Hin & E). apply Nat.eqb_eq in E.
    rewrite (A1 op Hin E), (B1 op (Permutation_in _ P Hin) E). reflexivity.
  - assert (N : forall op, In op l -> offset op <> i).
    { intros op Hin E'. assert (existsb (fun op => offset op =? i) l = true); [|congruence].
      apply existsb_exists. exists op. split; [assumption|]. now apply Nat.eqb_eq. }
    rewrite (A2 N), B2; [reflexivity|]. intros op Hin. apply N. eapply Permutation_in; [apply Permutation_sym|]; eauto.
Qed.
Lemma existsb_perm {A} (f : A -> bool) l l' : Permutation l l' -> existsb f l = existsb f l'.
Proof. induction 1; cbn; auto; [now rewrite IHPermutation|now destruct (f y), (f x)|congruence]. Qed.
Lemma before_elsewhere (op : op_t) i : offset op <> i -> before op i = [].
Proof. intros H. unfold before. apply Nat.eqb_neq in H. now rewrite H. Qed.
Lemma behind_elsewhere (op : op_t) i : offset op <> i -> behind op i = [].
Proof. intros H. unfold behind. apply Nat.eqb_neq in H. now rewrite H. Qed.
Lemma FOP_impl {A} (R R' : A -> A -> Prop) : (forall a b, R a b -> R' a b) -> forall l, ForallOrdPairs R l -> ForallOrdPairs R' l.
Proof. intros H l. induction 1; constructor; auto. eapply Forall_impl; [|eassumption]; auto. Qed.
Lemma edited_perm (l l' : list op_t) : Permutation l l' -> all_apart l -> forall text i, edited l i text = edited l' i text.
Proof.
  intros P H. assert (H0 : ForallOrdPairs (fun a b : op_t => offset a <> offset b) l)
    by (eapply FOP_impl; [|exact H]; intros a b (E & _); exact E).
  induction text as [|ch text IH]; intros i; [reflexivity|]. cbn [edited]. rewrite IH. f_equal. unfold piece.
  rewrite (flat_perm before i (fun op => before_elsewhere op i) l l' P H0).
  rewrite (flat_perm behind i (fun op => behind_elsewhere op i) l l' P H0).
  now rewrite (existsb_perm _ l l' P).
Qed.

(** ** a queue in order *)
Inductive chain : nat -> list op_t -> nat -> Prop :=     (* from, queue, end of text *)
| ch_nil i n : chain i [] n
| ch_ins i op q n : ~ is_span op -> i <= offset op < n -> chain (S (offset op)) q n -> chain i (op :: q) n
| ch_span i op q n : is_span op -> (0 < op_length op)%N -> i <= offset op < n -> offset op + N.to_nat (op_length op) <= n ->
    chain (offset op + N.to_nat (op_length op)) q n -> chain i (op :: q) n.

Lemma chain_offsets i q n : chain i q n -> forall op, In op q -> i <= offset op < n.
Proof. induction 1; intros o []; subst; auto; try (specialize (IHchain o H2)); try (specialize (IHchain o H4)); lia. Qed.
Lemma chain_weaken i j q n : chain i q n -> (forall op, In op q -> j <= offset op) -> chain j q n.
Proof.
  intros H Hj. destruct H as [|i op q n H1 H2 H3|i op q n H1 H2 H3 H4 H5]; [constructor|apply ch_ins|apply ch_span]; auto;
    split; try (apply Hj; now left); lia.
Qed.
Lemma span_dec (op : op_t) : is_span op \/ ~ is_span op.
Proof. unfold is_span. destruct (op_kind op); [left; auto|left; auto|right; intros [|]; discriminate..]. Qed.
Lemma span_takes (op : op_t) i : is_span op -> takes_away op i = (offset op <=? i) && (i <? offset op + N.to_nat (op_length op)).
Proof. unfold takes_away. now intros [->| ->]. Qed.
Lemma nospan_takes (op : op_t) i : ~ is_span op -> takes_away op i = false.
Proof. unfold takes_away, is_span. intros H. destruct (op_kind op); auto; exfalso; auto. Qed.

Lemma sorted_chain text ops sorted :
  sorted_by_offset ops sorted -> all_apart ops -> Forall (inside text) ops -> Forall nonempty_span ops ->
  chain 0 sorted (length text).
Proof.
  intros (P & Hs) Ha Hi Hn.
  assert (Ha' : all_apart sorted) by (eapply FOP_perm; eauto using apart_sym).
  assert (Hi' : Forall (inside text) sorted) by (eapply Permutation_Forall; eauto).
  assert (Hn' : Forall nonempty_span sorted) by (eapply Permutation_Forall; eauto).
  clear P Ha Hi Hn ops.
  assert (G : forall i, (forall op, In op sorted -> i <= offset op) -> chain i sorted (length text)).
  { induction sorted as [|op q IH]; intros i Hlow; [constructor|].
    inversion Ha' as [|? ? F1 F2]; subst. inversion Hi' as [|? ? (I1 & I2) I3]; subst. inversion Hn' as [|? ? N1 N2]; subst.
    assert (Hq : forall i0 j a b, i0 < j -> nth_error q i0 = Some a -> nth_error q j = Some b -> (op_offset a <= op_offset b)%N)
      by (intros i0 j a b Hlt Hx Hy; apply (Hs (S i0) (S j)); auto; lia).
    specialize (IH Hq F2 I3 N2).
    assert (Hle : forall b, In b q -> offset op < offset b /\ takes_away op (offset b) = false).
    { intros b Hb. rewrite Forall_forall in F1. specialize (F1 b Hb) as (E1 & E2 & _).
      apply In_nth_error in Hb as (k & Hk). pose proof (Hs 0 (S k) op b ltac:(lia) eq_refl Hk) as L.
      split; [unfold offset in *; lia|exact E2]. }
    specialize (Hlow op (or_introl eq_refl)).
    destruct (span_dec op) as [Hsp|Hsp].
    - apply ch_span; auto.
      apply IH. intros b Hb. destruct (Hle b Hb) as (L & T). rewrite (span_takes op _ Hsp) in T. lia.
    - apply ch_ins; auto. apply IH. intros b Hb. destruct (Hle b Hb). lia. }
  apply G. intros; lia.
Qed.

(** ** the loop *)
Variable w : N.
Variable debug : bool.
Notation loop := (@emit_loop char w debug).

Lemma loop_skip : forall text i q (k : nat), (i + N.of_nat k < npos w)%N ->
  loop text i q (i + N.of_nat k)%N = loop (skipn k text) (i + N.of_nat k)%N q (npos w).
Proof.
  induction text as [|ch text IH]; intros i q k Hk; [now rewrite skipn_nil|].
  destruct k as [|k].
  - rewrite N.add_0_r in *. cbn [skipn emit_loop]. rewrite N.ltb_irrefl, andb_false_r. rewrite N.eqb_refl. reflexivity.
  - cbn [skipn]. cbn [emit_loop].
    replace (i + N.of_nat (S k) =? npos w)%N with false by (symmetry; apply N.eqb_neq; lia).
    replace (i <? i + N.of_nat (S k))%N with true by (symmetry; apply N.ltb_lt; lia). cbn [negb andb].
    replace (i + N.of_nat (S k))%N with (i + 1 + N.of_nat k)%N by lia. apply IH. lia.
Qed.
Lemma loop_skip' text i q ig : (i <= ig)%N -> (ig < npos w)%N ->
  loop text i q ig = loop (skipn (N.to_nat (ig - i)) text) ig q (npos w).
Proof.
  intros H1 H2. pose proof (loop_skip text i q (N.to_nat (ig - i))) as H. rewrite N2Nat.id in H.
  replace (i + (ig - i))%N with ig in H by lia. now apply H.
Qed.

Lemma flat_none (f : op_t -> nat -> string) i q : (forall op, In op q -> f op i = []) -> flat_map (fun op => f op i) q = [].
Proof. induction q as [|a q IH]; intros H; [reflexivity|]. cbn. rewrite H by now left. apply IH. intros; apply H; now right. Qed.
Lemma exists_none (f : op_t -> bool) q : (forall op, In op q -> f op = false) -> existsb f q = false.
Proof. induction q as [|a q IH]; intros H; [reflexivity|]. cbn. rewrite H by now left. apply IH. intros; apply H; now right. Qed.
Lemma takes_low (op : op_t) i : i < offset op -> takes_away op i = false.
Proof. intros H. unfold takes_away. replace (offset op <=? i) with false by (symmetry; apply Nat.leb_gt; lia). now destruct (op_kind op). Qed.
Lemma piece_low (q : list op_t) i ch : (forall op, In op q -> i < offset op) -> piece q i ch = [ch].
Proof.
  intros H. unfold piece. rewrite !flat_none, exists_none; auto.
  - intros op Hin. apply takes_low. auto.
  - intros op Hin. apply behind_elsewhere. specialize (H op Hin). lia.
  - intros op Hin. apply before_elsewhere. specialize (H op Hin). lia.
Qed.
Lemma edited_nil (text : string) i : edited [] i text = text.
Proof. revert i. induction text as [|ch text IH]; intros i; [reflexivity|]. cbn. now rewrite IH. Qed.
(** Once past an edit it has no more effect. *)
Lemma edited_past (op : op_t) q text i : offset op < i -> (is_span op -> offset op + N.to_nat (op_length op) <= i) ->
  edited (op :: q) i text = edited q i text.
Proof.
  revert i. induction text as [|ch text IH]; intros i H1 H2; [reflexivity|]. cbn [edited]. f_equal.
  - unfold piece. cbn [flat_map existsb]. rewrite (before_elsewhere op i), (behind_elsewhere op i) by lia. cbn [app].
    replace (takes_away op i) with false; [reflexivity|]. symmetry. destruct (span_dec op) as [Hs|Hs].
    + rewrite (span_takes op i Hs). specialize (H2 Hs). apply andb_false_iff. right. apply Nat.ltb_ge. lia.
    + now apply nospan_takes.
  - apply IH; [lia|]. intros Hs. specialize (H2 Hs). lia.
Qed.
Lemma edited_within (op : op_t) q : is_span op -> forall text i k, offset op < i -> i + k = offset op + N.to_nat (op_length op) ->
  k <= length text -> (forall b, In b q -> offset op + N.to_nat (op_length op) <= offset b) ->
  edited (op :: q) i text = edited q (i + k) (skipn k text).
Proof.
  intros Hs text. induction text as [|ch text IH]; intros i k H1 H2 H3 H4.
  - cbn in H3. replace k with 0 by lia. reflexivity.
  - destruct k as [|k].
    + cbn [skipn]. rewrite Nat.add_0_r. apply edited_past; [lia|]. intros _. lia.
    + cbn [skipn]. cbn [edited]. rewrite (IH (S i) k) by (cbn in H3; auto; lia).
      replace (S i + k) with (i + S k) by lia.
      replace (piece (op :: q) i ch) with (@nil char); [reflexivity|]. symmetry. unfold piece. cbn [flat_map existsb].
      rewrite (before_elsewhere op i), (behind_elsewhere op i) by lia. rewrite (span_takes op i Hs).
      replace ((offset op <=? i) && (i <? offset op + N.to_nat (op_length op))) with true by lia. cbn [orb app].
      rewrite !flat_none; [reflexivity| |].
      * intros b Hb. apply behind_elsewhere. specialize (H4 b Hb). lia.
      * intros b Hb. apply before_elsewhere. specialize (H4 b Hb). lia.
Qed.

Lemma assert_low (op : op_t) i : i <= offset op -> assert_ debug (N.of_nat i <=? op_offset op)%N = Ok tt.
Proof. intros H. unfold offset in H. replace (N.of_nat i <=? op_offset op)%N with true by (symmetry; apply N.leb_le; lia). unfold assert_. now rewrite andb_false_r. Qed.

Lemma loop_ok : forall m text i q, length text <= m -> chain i q (i + length text) ->
  (N.of_nat (i + length text) < npos w)%N ->
  loop text (N.of_nat i) q (npos w) = Ok (edited q i text, []).
Proof.
  induction m as [|m IH]; intros text i q Hm Hc Hw; (destruct text as [|ch text]; [
    cbn in *; inversion Hc; subst; [reflexivity|lia|lia] | cbn in Hm]); [lia|].
  cbn [length] in *. cbn [emit_loop]. rewrite N.eqb_refl. cbn [negb andb].
  destruct q as [|op q].
  - cbn [assert_ andb negb]. unfold assert_. rewrite andb_false_r. cbn [bind].
    replace (N.of_nat i + 1)%N with (N.of_nat (S i)) by lia. rewrite IH; [|lia|constructor|now rewrite Nat.add_succ_comm].
    cbn [bind]. now rewrite !edited_nil.
  - assert (Hlow : i <= offset op) by (apply (chain_offsets _ _ _ Hc); now left).
    rewrite (assert_low op i Hlow). cbn [bind].
    replace (N.of_nat i + 1)%N with (N.of_nat (S i)) by lia.
    destruct (N.eqb_spec (op_offset op) (N.of_nat i)) as [Ho|Ho]; cbn [negb].
    + assert (Eo : offset op = i) by (unfold offset; rewrite Ho; apply Nat2N.id).
      inversion Hc as [|? ? ? ? Hs Hr Hc'|? ? ? ? Hs Hl Hr He Hc']; subst i0 op0 q0 n.
      * assert (Hq : forall b, In b q -> S i <= offset b) by (intros b Hb; pose proof (chain_offsets _ _ _ Hc' b Hb); lia).
        rewrite Eo in Hc'. rewrite <- Nat.add_succ_comm in Hc'.
        assert (Eed : edited (op :: q) (S i) text = edited q (S i) text) by (apply edited_past; [lia|intros; contradiction]).
        assert (Ep : piece (op :: q) i ch = before op i ++ [ch] ++ behind op i).
        { unfold piece. cbn [flat_map existsb]. rewrite (nospan_takes op i Hs). cbn [orb].
          rewrite exists_none by (intros b Hb; apply takes_low; specialize (Hq b Hb); lia).
          rewrite !flat_none; [now rewrite !app_nil_r| |].
          - intros b Hb. apply behind_elsewhere. specialize (Hq b Hb). lia.
          - intros b Hb. apply before_elsewhere. specialize (Hq b Hb). lia. }
        cbn [edited]. rewrite Ep, Eed. unfold before, behind. rewrite Eo, Nat.eqb_refl.
        destruct (op_kind op) eqn:Ek; [exfalso; apply Hs; left; exact Ek|exfalso; apply Hs; right; exact Ek| |];
          (rewrite IH; [|lia|exact Hc'|now rewrite Nat.add_succ_comm]); cbn [bind app]; f_equal; f_equal; rewrite <- ?app_assoc; reflexivity.
      * set (L := N.to_nat (op_length op)) in *. assert (EL : op_length op = N.of_nat L) by (unfold L; lia).
        assert (HL : 0 < L) by lia.
        assert (Ei : uadd w (N.of_nat i) (op_length op) = N.of_nat (i + L)).
        { unfold uadd. rewrite EL, <- Nat2N.inj_add. apply N.mod_small. unfold npos in Hw. lia. }
        assert (Hq : forall b, In b q -> offset op + L <= offset b) by (intros b Hb; apply (chain_offsets _ _ _ Hc' b Hb)).
        assert (Eloop : loop text (N.of_nat (S i)) q (N.of_nat (i + L)) = Ok (edited q (i + L) (skipn (L - 1) text), [])).
        { rewrite loop_skip' by (unfold npos in *; lia).
          replace (N.to_nat (N.of_nat (i + L) - N.of_nat (S i))) with (L - 1) by lia.
          assert (Ll : length (skipn (L - 1) text) = length text - (L - 1)) by apply skipn_length.
          apply IH; [lia| |].
          - rewrite Ll. replace (i + L + (length text - (L - 1))) with (i + S (length text)) by lia. now rewrite Eo in Hc'.
          - rewrite Ll. lia. }
        assert (Eed : edited (op :: q) (S i) text = edited q (i + L) (skipn (L - 1) text)).
        { rewrite (edited_within op q Hs text (S i) (L - 1)) by (fold L; auto; lia). f_equal. lia. }
        assert (Ep : piece (op :: q) i ch = before op i).
        { unfold piece. cbn [flat_map existsb]. rewrite (span_takes op i Hs). fold L.
          replace ((offset op <=? i) && (i <? offset op + L)) with true by lia. cbn [orb].
          rewrite !flat_none; [|intros b Hb; apply behind_elsewhere; specialize (Hq b Hb); lia
                              |intros b Hb; apply before_elsewhere; specialize (Hq b Hb); lia].
          unfold behind. rewrite Eo, Nat.eqb_refl. destruct Hs as [-> | ->]; now rewrite !app_nil_r. }
        rewrite Ei. cbn [edited]. rewrite Ep, Eed. unfold before. rewrite Eo, Nat.eqb_refl.
        destruct Hs as [-> | ->]; rewrite Eloop; reflexivity.
    + assert (Hgt : i < offset op) by (unfold offset in *; lia).
      assert (Hall : forall b, In b (op :: q) -> i < offset b).
      { inversion Hc as [|? ? ? ? Hs Hr Hc'|? ? ? ? Hs Hl Hr He Hc']; subst i0 op0 q0 n; intros b [<-|Hb]; auto;
          pose proof (chain_offsets _ _ _ Hc' b Hb); lia. }
      rewrite IH; [|lia| |now rewrite Nat.add_succ_comm].
      * cbn [bind edited]. now rewrite (piece_low (op :: q) i ch Hall).
      * rewrite Nat.add_succ_comm. apply (chain_weaken i); [exact Hc|]. intros b Hb. specialize (Hall b Hb). lia.
Qed.

(** What a successful loop has consumed. *)
Lemma loop_inv : debug = true -> forall text i q ig out q', loop text (N.of_nat i) q ig = Ok (out, q') ->
  exists used, q = used ++ q' /\ (forall op, In op used -> i <= offset op < i + length text) /\ NoDup (map offset used).
Proof.
  intros Hd. induction text as [|ch text IH]; intros i q ig out q' H.
  - cbn in H. injection H as <- <-. exists []. split; [reflexivity|]. split; [intros ? []|constructor].
  - assert (Step : forall qq ig out q', loop text (N.of_nat (S i)) qq ig = Ok (out, q') ->
      exists used, qq = used ++ q' /\ (forall op, In op used -> S i <= offset op < i + S (length text)) /\ NoDup (map offset used)).
    { intros qq ig0 out0 q0 H0. destruct (IH _ _ _ _ _ H0) as (u & A & B & C). exists u. split; [exact A|]. split; [|exact C].
      intros op Hin. specialize (B op Hin). lia. }
    assert (Lift : forall qq ig out q', loop text (N.of_nat (S i)) qq ig = Ok (out, q') ->
      exists used, qq = used ++ q' /\ (forall op, In op used -> i <= offset op < i + S (length text)) /\ NoDup (map offset used)).
    { intros qq ig0 out0 q0 H0. destruct (Step _ _ _ _ H0) as (u & A & B & C). exists u. split; [exact A|]. split; [|exact C].
      intros op Hin. specialize (B op Hin). lia. }
    cbn [length]. cbn [emit_loop] in H. replace (N.of_nat i + 1)%N with (N.of_nat (S i)) in H by lia.
    destruct (negb (ig =? npos w)%N && (N.of_nat i <? ig)%N); [now apply Lift in H|].
    destruct (assert_ debug _) as [[]| |] eqn:Ea; cbn [bind] in H; try discriminate.
    destruct q as [|op q].
    + destruct (loop text (N.of_nat (S i)) [] (npos w)) as [[o1 q1]| |] eqn:El; cbn [bind] in H; try discriminate.
      injection H as _ <-. now apply Lift in El.
    + destruct (N.eqb_spec (op_offset op) (N.of_nat i)) as [Ho|Ho]; cbn [negb] in H.
      * assert (Eo : offset op = i) by (unfold offset; rewrite Ho; apply Nat2N.id).
        assert (Cons : forall ig out, loop text (N.of_nat (S i)) q ig = Ok (out, q') ->
          exists used, op :: q = used ++ q' /\ (forall op, In op used -> i <= offset op < i + S (length text)) /\ NoDup (map offset used)).
        { intros ig0 out0 H0. destruct (Step _ _ _ _ H0) as (u & A & B & C). exists (op :: u). split; [cbn; now rewrite A|]. split.
          - intros b [<-|Hb]; [lia|]. specialize (B b Hb). lia.
          - cbn. constructor; [|exact C]. intros Hin. apply in_map_iff in Hin as (b & Eb & Hb). specialize (B b Hb). lia. }
        destruct (op_kind op); repeat match type of H with
          | bind (loop text ?a ?b ?c) _ = _ => destruct (loop text a b c) as [[o1 q1]| |] eqn:El; cbn [bind] in H; try discriminate
          end; try (injection H as _ <-); eauto.
      * destruct (loop text (N.of_nat (S i)) (op :: q) (npos w)) as [[o1 q1]| |] eqn:El; cbn [bind] in H; try discriminate.
        injection H as _ <-. now apply Lift in El.
Qed.
(** In a release build, an edit whose offset is behind the index blocks all the others. *)
Lemma loop_blocked : debug = false -> forall text i op q, offset op < i ->
  loop text (N.of_nat i) (op :: q) (npos w) = Ok (text, op :: q).
Proof.
  intros Hd. induction text as [|ch text IH]; intros i op q H; [reflexivity|]. cbn [emit_loop]. rewrite N.eqb_refl.
  cbn [negb andb]. rewrite Hd. cbn [assert_ andb bind].
  replace (op_offset op =? N.of_nat i)%N with false by (symmetry; apply N.eqb_neq; unfold offset in H; lia). cbn [negb].
  replace (N.of_nat i + 1)%N with (N.of_nat (S i)) by lia. rewrite <- Hd. rewrite IH by lia. reflexivity.
Qed.
End P.
