(** Proofs about the calls of the comparator. *)
From Verif Require Import Base PQModel PQSpec PQProofs PQCostModel PQCostSpec.

Lemma log2_half m : 2 <= m -> Nat.log2 m = S (Nat.log2 (m / 2)).
Proof.
  intros H. assert (1 <= m / 2) by (change 1 with (2 / 2); apply Nat.div_le_mono; lia).
  destruct (Nat.log2_spec (m / 2)) as [A B]; [lia|].
  apply Nat.log2_unique; [lia|].
  pose proof (Nat.div_mod m 2 ltac:(lia)). pose proof (Nat.mod_upper_bound m 2 ltac:(lia)).
  change (2 ^ S (Nat.log2 (m / 2))) with (2 * 2 ^ Nat.log2 (m / 2)) in *.
  change (2 ^ S (S (Nat.log2 (m / 2)))) with (2 * (2 * 2 ^ Nat.log2 (m / 2))) in *. cbn [Nat.pow] in B. lia.
Qed.

Section P.
Variable T : Type.
Variable St : Type.
Variable cmp : St -> T -> T -> bool * St.
Variable debug : bool.
Notation world := (world T St).
Notation full := (full T).

Lemma parentOf_ok c : 0 < c -> parentOf debug c = Ok ((c - 1) / 2).
Proof. intros H. unfold parentOf, assert_. destruct (Nat.ltb_spec 0 c); [|lia]. cbn [negb]. rewrite andb_false_r. reflexivity. Qed.
Lemma ask_calls (w w' : world) a b r : ask cmp w a b = (r, w') -> calls w' = (a, b) :: calls w.
Proof. unfold ask. destruct (cmp (cst w) a b). intros E. injection E as _ <-. reflexivity. Qed.

(** Items compared are items of [L]. *)
Definition among (cs : list (T * T)) (L : list T) : Prop := forall a b, In (a, b) cs -> In a L /\ In b L.
Lemma among_nil L : among [] L.
Proof. intros a b []. Qed.
Lemma among_perm cs L L' : Permutation L L' -> among cs L -> among cs L'.
Proof. intros P H a b I. destruct (H a b I). split; eapply Permutation_in; eauto. Qed.
Lemma among_app cs ds L : among cs L -> among ds L -> among (cs ++ ds) L.
Proof. intros A B a b I. apply in_app_or in I as [I|I]; auto. Qed.
Lemma among_one a b L : In a L -> In b L -> among [(a, b)] L.
Proof. intros A B c d [I|[]]. injection I as <- <-. auto. Qed.

Lemma up_ok : forall fuel (w : world) L c key, c < fuel -> nth_error L c = Some key ->
  exists L' c' w' cs, up_loop cmp debug fuel w (upd (full L) c None) c key = Ok (upd (full L') c' None, c', w') /\
    nth_error L' c' = Some key /\ Permutation L' L /\ calls w' = cs ++ calls w /\ length cs <= Nat.log2 (c + 1) /\ among cs L.
Proof.
  induction fuel as [|f IH]; intros w L c key Hf Hk; [lia|]. cbn [up_loop].
  destruct (Nat.eqb_spec c 0) as [->|Hc].
  - exists L, 0, w, []. repeat match goal with |- _ /\ _ => split end; auto using among_nil; try (cbn; lia).
  - rewrite parentOf_ok by lia. cbn [bind].
    pose proof (nth_lt _ _ _ Hk) as Hl. set (p := (c - 1) / 2).
    assert (Hp : p < c) by (unfold p; apply Nat.div_lt_upper_bound; lia).
    destruct (nth_ex L p ltac:(lia)) as [pv Hpv]. rewrite (val_hole _ L p c pv) by (auto; lia). cbn [bind].
    destruct (ask cmp w key pv) as [r w1] eqn:A. pose proof (ask_calls _ _ _ _ _ A) as C1.
    assert (M1 : among [(key, pv)] L) by (apply among_one; eapply nth_error_In; eauto).
    assert (LG : 1 <= Nat.log2 (c + 1)) by (apply Nat.log2_le_pow2; cbn; lia).
    destruct r; cbn [negb].
    + unfold take. rewrite (val_hole _ L p c pv) by (auto; lia). cbn [bind].
      unfold put. rewrite slot_set_ok by (rewrite !upd_length, full_length; lia). cbn [bind].
      assert (E : upd (upd (upd (full L) c None) p None) c (Some pv) = upd (full (swp T L c p key pv)) p None).
      { unfold swp. rewrite <- !upd_full. rewrite (upd_comm _ c p) by lia. rewrite upd_upd.
        rewrite (upd_comm _ c p (Some pv)) by lia.
        rewrite (upd_comm (upd (full L) p (Some key)) c p) by lia. now rewrite upd_upd. }
      assert (Hsw : nth_error (swp T L c p key pv) p = Some key).
      { rewrite (swp_nth T (fun _ _ => false)) by lia. destruct (Nat.eqb_spec p c); [lia|]. now rewrite Nat.eqb_refl. }
      assert (PS : Permutation (swp T L c p key pv) L) by (apply swp_perm; auto; lia).
      rewrite E. destruct (IH w1 (swp T L c p key pv) p key) as (L' & c' & w' & cs & E' & Hk' & HP & C & Le & M); [lia|exact Hsw|].
      exists L', c', w', (cs ++ [(key, pv)]). split; [exact E'|]. split; [exact Hk'|].
      split; [now rewrite HP|]. split; [rewrite C, C1, <- app_assoc; reflexivity|]. split.
      * rewrite app_length. cbn [length]. rewrite (log2_half (c + 1)) by lia.
        assert (p + 1 = (c + 1) / 2).
        { unfold p. replace (c + 1) with (c - 1 + 1 * 2) by lia. rewrite Nat.div_add by lia. reflexivity. }
        replace ((c + 1) / 2) with (p + 1) by auto. lia.
      * apply among_app; [exact (among_perm _ _ _ PS M)|exact M1].
    + exists L, c, w1, [(key, pv)]. repeat match goal with |- _ /\ _ => split end; auto using among_nil.
Qed.

Lemma down_ok : forall fuel (w : world) L c, length L - c < fuel -> c < length L ->
  exists L' w' cs, down_loop cmp fuel w (full L) c = Ok (full L', w') /\ Permutation L' L /\
    calls w' = cs ++ calls w /\ length cs <= 2 * (Nat.log2 (length L) - Nat.log2 (c + 1)) /\ among cs L.
Proof.
  induction fuel as [|f IH]; intros w L c Hf Hc; [lia|]. cbn [down_loop].
  unfold hasLeftChild, hasRightChild, leftChildOf, rightChildOf. rewrite full_length.
  destruct (nth_ex L c Hc) as [cv Hcv].
  destruct (Nat.ltb_spec (c * 2 + 1) (length L)) as [HL|HL].
  2: { exists L, w, []. repeat match goal with |- _ /\ _ => split end; auto using among_nil; try (cbn; lia). }
  destruct (nth_ex L (c * 2 + 1) HL) as [lv Hlv].
  assert (L2 : Nat.log2 (c * 2 + 1 + 1) = S (Nat.log2 (c + 1)) /\ Nat.log2 (c * 2 + 2 + 1) = S (Nat.log2 (c + 1))).
  { split; rewrite log2_half by lia; do 2 f_equal.
    - replace (c * 2 + 1 + 1) with (0 + (c + 1) * 2) by lia. rewrite Nat.div_add by lia. reflexivity.
    - replace (c * 2 + 2 + 1) with (1 + (c + 1) * 2) by lia. rewrite Nat.div_add by lia. reflexivity. }
  destruct L2 as [L2 L2r].
  assert (LL : S (Nat.log2 (c + 1)) <= Nat.log2 (length L)) by (rewrite <- L2; apply Nat.log2_le_mono; lia).
  (* the second half of an iteration *)
  assert (K : forall w1 best bv pre, (best = c * 2 + 1 \/ best = c * 2 + 2) -> nth_error L best = Some bv -> length pre <= 1 -> among pre L ->
    calls w1 = pre ++ calls w ->
    exists L' w' cs,
      (do b <- val T (full L) best; do c0 <- val T (full L) c;
       let '(r, w2) := ask cmp w1 b c0 in
       if negb r then Ok (full L, w2)
       else do l1 <- put T (full L) best c0; do l2 <- put T l1 c b; down_loop cmp f w2 l2 best) = Ok (full L', w') /\
      Permutation L' L /\ calls w' = cs ++ calls w /\ length cs <= 2 * (Nat.log2 (length L) - Nat.log2 (c + 1)) /\ among cs L).
  { intros w1 best bv pre Hb Hbv Hpre Mpre Cpre.
    rewrite (val_full _ L best bv Hbv), (val_full _ L c cv Hcv). cbn [bind].
    destruct (ask cmp w1 bv cv) as [r w2] eqn:A. pose proof (ask_calls _ _ _ _ _ A) as C2.
    assert (M1 : among [(bv, cv)] L) by (apply among_one; eapply nth_error_In; eauto).
    pose proof (nth_lt _ _ _ Hbv) as Hbl.
    destruct r; cbn [negb].
    - rewrite put_full by exact Hbl. cbn [bind]. rewrite put_full by (rewrite upd_length; exact Hc). cbn [bind].
      change (upd (upd L best cv) c bv) with (swp T L best c bv cv).
      assert (PS : Permutation (swp T L best c bv cv) L) by (apply swp_perm; auto; lia).
      destruct (IH w2 (swp T L best c bv cv) best) as (L' & w' & cs & E & HP & C & Le & M).
      + rewrite swp_length. lia.
      + rewrite swp_length. exact Hbl.
      + rewrite swp_length in Le.
        exists L', w', (cs ++ (bv, cv) :: pre). split; [exact E|]. split; [now rewrite HP|].
        split; [rewrite C, C2, Cpre, <- app_assoc; reflexivity|]. split.
        * rewrite app_length. cbn [length].
          assert (Nat.log2 (best + 1) = S (Nat.log2 (c + 1))) by (destruct Hb as [-> | ->]; assumption). lia.
        * apply among_app; [exact (among_perm _ _ _ PS M)|]. exact (among_app [_] _ _ M1 Mpre).
    - exists L, w2, ((bv, cv) :: pre). split; [reflexivity|]. split; [reflexivity|]. split; [rewrite C2, Cpre; reflexivity|].
      split; [cbn [length]; lia|]. exact (among_app [_] _ _ M1 Mpre). }
  destruct (Nat.ltb_spec (c * 2 + 2) (length L)) as [HR|HR].
  - destruct (nth_ex L (c * 2 + 2) HR) as [rv Hrv]. rewrite (val_full _ L _ rv Hrv), (val_full _ L _ lv Hlv). cbn [bind].
    destruct (ask cmp w rv lv) as [r w1] eqn:A. pose proof (ask_calls _ _ _ _ _ A) as C1. cbn [bind].
    assert (M1 : among [(rv, lv)] L) by (apply among_one; eapply nth_error_In; eauto).
    destruct r; [apply (K w1 _ rv [(rv, lv)])|apply (K w1 _ lv [(rv, lv)])]; auto.
  - cbn [bind]. apply (K w _ lv []); auto using among_nil.
Qed.

Lemma add_ok (w : world) L x : exists L' w' cs, add cmp debug w (full L) x = Ok (full L', w') /\ Permutation L' (x :: L) /\
  calls w' = cs ++ calls w /\ length cs <= Nat.log2 (length L + 1) /\ among cs L'.
Proof.
  unfold add. assert (E : full L ++ [Some x] = full (L ++ [x])) by (unfold full, PQProofs.full; now rewrite map_app).
  rewrite E, full_length, app_length. cbn [length].
  assert (P1 : Permutation (L ++ [x]) (x :: L)) by (rewrite Permutation_app_comm; reflexivity).
  destruct (Nat.ltb_spec 1 (length L + 1)) as [Hl|Hl].
  - unfold propagateUp, take. set (c := length L + 1 - 1).
    assert (Hk : nth_error (L ++ [x]) c = Some x).
    { unfold c. rewrite nth_error_app2 by lia. replace (length L + 1 - 1 - length L) with 0 by lia. reflexivity. }
    rewrite (val_full _ _ _ _ Hk). cbn [bind].
    destruct (up_ok (S c) w (L ++ [x]) c x) as (L' & c' & w' & cs & E' & Hk' & HP & C & Le & M); [lia|exact Hk|].
    rewrite E'. cbn [bind]. unfold put. rewrite slot_set_ok by (rewrite upd_length, full_length; exact (nth_lt _ _ _ Hk')). cbn [bind].
    rewrite upd_upd, upd_full, upd_same by exact Hk'.
    exists L', w', cs. split; [reflexivity|]. split; [now rewrite HP|]. split; [exact C|]. split; [unfold c in Le; replace (length L + 1 - 1 + 1) with (length L + 1) in Le by lia; exact Le|].
    eapply among_perm; [symmetry; exact HP|exact M].
  - exists (L ++ [x]), w, []. repeat match goal with |- _ /\ _ => split end; auto using among_nil; try (cbn; lia).
Qed.

Lemma pop_ok (w : world) x L : exists L' w' cs, pop cmp debug w (full (x :: L)) = Ok (x, full L', w') /\ Permutation L' L /\
  calls w' = cs ++ calls w /\ length cs <= 2 * Nat.log2 (length L) /\ among cs L'.
Proof.
  unfold pop. unfold assert_. cbn [PQProofs.full map empty negb]. rewrite andb_false_r. cbn [bind].
  unfold take at 1. unfold val, slot_get. cbn [nth_error bind upd length].
  destruct L as [|y L] using rev_ind.
  - cbn. exists [], w, []. repeat match goal with |- _ /\ _ => split end; auto using among_nil; try (cbn; lia).
  - clear IHL. change (map Some (L ++ [y])) with (full (L ++ [y])). rewrite full_length, app_length. cbn [length].
    destruct (Nat.eqb_spec (S (length L + 1)) 1); [lia|].
    unfold take. assert (V : val T (None :: full (L ++ [y])) (S (length L + 1) - 1) = Ok y).
    { unfold val, slot_get. replace (S (length L + 1) - 1) with (S (length L)) by lia. cbn [nth_error].
      rewrite nth_full, nth_error_app2, Nat.sub_diag by lia. reflexivity. }
    rewrite V. cbn [bind]. unfold put. rewrite slot_set_ok by (rewrite upd_length; cbn [length]; lia). cbn [bind].
    assert (E : removelast (upd (upd (None :: full (L ++ [y])) (S (length L + 1) - 1) None) 0 (Some y)) = full (y :: L)).
    { replace (S (length L + 1) - 1) with (S (length L)) by lia. cbn [upd].
      assert (X : upd (full (L ++ [y])) (length L) None = full L ++ [None]).
      { unfold PQProofs.full. clear. induction L as [|a L IH]; cbn; [reflexivity|]. now rewrite IH. }
      rewrite X. change (Some y :: full L ++ [None]) with ((Some y :: full L) ++ [None]). rewrite removelast_app1. reflexivity. }
    rewrite E. unfold propagateDown. rewrite full_length.
    destruct (down_ok (S (length (y :: L))) w (y :: L) 0) as (L' & w' & cs & E' & HP & C & Le & M); [lia|cbn [length]; lia|].
    rewrite E'. cbn [bind]. exists L', w', cs. split; [reflexivity|].
    split; [rewrite HP; apply Permutation_cons_append|]. split; [exact C|]. split.
    + change (Nat.log2 (0 + 1)) with 0 in Le. cbn [length] in Le. replace (length L + 1) with (S (length L)) by lia. lia.
    + eapply among_perm; [symmetry; exact HP|exact M].
Qed.

Lemma step_ok (w : world) L o : (match o with PPop | PPeek => 0 < length L | _ => True end) ->
  exists L' w' r cs, step cmp debug w (full L) o = Ok (full L', w', r) /\ bag_step T (fun _ _ => false) false L o r L' /\
    calls w' = cs ++ calls w /\ length cs <= bound o (length L) /\ among cs L' /\
    length L' = match o with PAdd _ => S (length L) | PPop => length L - 1 | _ => length L end.
Proof.
  intros H. destruct o as [x| | | |]; cbn [step bag_step bound].
  - destruct (add_ok w L x) as (L' & w' & cs & -> & P & C & Le & M). cbn [bind]. exists L', w', RNone, cs.
    repeat (split; [auto|]). rewrite (Permutation_length P). reflexivity.
  - destruct L as [|x L]; [cbn in H; lia|]. destruct (pop_ok w x L) as (L' & w' & cs & -> & P & C & Le & M). cbn [bind].
    exists L', w', (RVal x), cs. split; [reflexivity|]. split; [exists x; repeat split; [left; reflexivity|now rewrite P]|].
    split; [exact C|]. split; [cbn [length]; rewrite Nat.sub_0_r || idtac; replace (S (length L) - 1) with (length L) by lia; exact Le|]. split; [exact M|].
    rewrite (Permutation_length P). cbn [length]. lia.
  - destruct L as [|x L]; [cbn in H; lia|]. unfold peek, assert_. cbn [PQProofs.full map empty negb]. rewrite andb_false_r. cbn.
    exists (x :: L), w, (RVal x), []. repeat match goal with |- _ /\ _ => split end; auto using among_nil; try (cbn; lia). exists x. repeat split; auto. all: try (left; reflexivity).
  - exists L, w, (RBool (empty T (full L))), []. repeat match goal with |- _ /\ _ => split end; auto using among_nil; try (cbn; lia). f_equal. destruct L; reflexivity.
  - exists L, w, RNone, []. repeat match goal with |- _ /\ _ => split end; auto using among_nil; try (cbn; lia).
Qed.

Lemma run_ok : forall ops (w : world) L, legal (length L) ops ->
  exists L' w' outs, run cmp debug w (full L) ops = Ok (full L', w', outs) /\ bag_run (fun _ _ => false) false L ops outs L'.
Proof.
  induction ops as [|o ops IH]; intros w L H; cbn [run].
  - exists L, w, []. split; [reflexivity|constructor].
  - destruct (step_ok w L o) as (L1 & w1 & r & cs & E & B & _ & _ & _ & Len); [destruct o; cbn in H; tauto|].
    rewrite E. cbn [bind]. destruct (IH w1 L1) as (L2 & w2 & outs & E2 & B2).
    { rewrite Len. destruct o; cbn in H; tauto. }
    rewrite E2. cbn [bind]. exists L2, w2, (r :: outs). split; [reflexivity|]. econstructor; eauto.
Qed.
Lemma frugal_ok : forall ops (w : world) L, legal (length L) ops -> exists costs, frugal cmp debug w (full L) ops costs.
Proof.
  induction ops as [|o ops IH]; intros w L H.
  - eexists. constructor.
  - destruct (step_ok w L o) as (L1 & w1 & r & cs & E & B & C & Le & M & Len); [destruct o; cbn in H; tauto|].
    destruct (IH w1 L1) as (rest & F). { rewrite Len. destruct o; cbn in H; tauto. }
    exists (length cs :: rest). econstructor; eauto.
    + rewrite full_length. exact Le.
    + intros a b I. destruct (M a b I). split; apply (in_map Some); auto.
Qed.
End P.

(** A comparator without state: the model of C28. *)
Section Pure.
Variable T : Type.
Variable hp : T -> T -> bool.
Variable debug : bool.
Definition pure (_ : unit) (a b : T) : bool * unit := (hp a b, tt).
Definition w0 (c : list (T * T)) : world T unit := World tt c.

Definition drop {A B W} (x : outcome (A * W * B)) : outcome (A * B) := do (a, _, b) <- x; Ok (a, b).
Lemma up_pure : forall fuel w l c key,
  PQModel.up_loop T hp debug fuel l c key = do (l', c', _) <- up_loop pure debug fuel w l c key; Ok (l', c').
Proof.
  induction fuel as [|f IH]; intros w l c key; cbn [PQModel.up_loop up_loop]; [reflexivity|].
  destruct (c =? 0); [reflexivity|]. destruct (parentOf debug c) as [p| |]; cbn [bind]; try reflexivity.
  destruct (val T l p) as [pv| |]; cbn [bind]; try reflexivity. unfold ask, pure. destruct (hp key pv); cbn [negb]; [|reflexivity].
  destruct (take T l p) as [[x l1]| |]; cbn [bind]; try reflexivity. destruct (put T l1 c x) as [l2| |]; cbn [bind]; try reflexivity. apply IH.
Qed.
Lemma down_pure : forall fuel w l c, PQModel.down_loop T hp fuel l c = do (l', _) <- down_loop pure fuel w l c; Ok l'.
Proof.
  induction fuel as [|f IH]; intros w l c; cbn [PQModel.down_loop down_loop]; [reflexivity|].
  destruct (hasLeftChild T l c); [|reflexivity].
  destruct (hasRightChild T l c).
  - destruct (val T l (rightChildOf c)) as [r| |]; cbn [bind]; try reflexivity.
    destruct (val T l (leftChildOf c)) as [b| |]; cbn [bind]; try reflexivity. unfold ask at 1. unfold pure at 1. cbn [bind].
    set (best := if hp r b then rightChildOf c else leftChildOf c).
    destruct (val T l best) as [bv| |]; cbn [bind]; try reflexivity. destruct (val T l c) as [cv| |]; cbn [bind]; try reflexivity.
    unfold ask, pure. destruct (hp bv cv); cbn [negb]; [|reflexivity].
    destruct (put T l best cv) as [l1| |]; cbn [bind]; try reflexivity. destruct (put T l1 c bv) as [l2| |]; cbn [bind]; try reflexivity. apply IH.
  - cbn [bind]. destruct (val T l (leftChildOf c)) as [bv| |]; cbn [bind]; try reflexivity. destruct (val T l c) as [cv| |]; cbn [bind]; try reflexivity.
    unfold ask, pure. destruct (hp bv cv); cbn [negb]; [|reflexivity].
    destruct (put T l (leftChildOf c) cv) as [l1| |]; cbn [bind]; try reflexivity. destruct (put T l1 c bv) as [l2| |]; cbn [bind]; try reflexivity. apply IH.
Qed.
Lemma step_pure w l o : PQModel.step hp debug l o = drop (step pure debug w l o).
Proof.
  unfold drop. destruct o as [x| | | |]; cbn [PQModel.step step]; try reflexivity.
  - unfold PQModel.add, add. destruct (1 <? _); [|reflexivity]. unfold PQModel.propagateUp, propagateUp.
    destruct (take T _ _) as [[k l1]| |]; cbn [bind]; try reflexivity. rewrite (up_pure _ w).
    destruct (up_loop pure debug _ w l1 _ k) as [[[l2 c2] w2]| |]; cbn [bind]; try reflexivity.
    destruct (put T l2 c2 k); reflexivity.
  - unfold PQModel.pop, pop. destruct (assert_ debug _); cbn [bind]; try reflexivity.
    destruct (take T l 0) as [[t l1]| |]; cbn [bind]; try reflexivity. destruct (length l1 =? 1); [reflexivity|].
    destruct (take T l1 _) as [[b l2]| |]; cbn [bind]; try reflexivity. destruct (put T l2 0 b) as [l3| |]; cbn [bind]; try reflexivity.
    unfold PQModel.propagateDown, propagateDown. rewrite (down_pure _ w).
    destruct (down_loop pure _ w _ 0) as [[l4 w4]| |]; reflexivity.
  - destruct (peek T debug l); reflexivity.
Qed.
Lemma run_pure : forall ops w l, PQModel.run hp debug l ops = drop (run pure debug w l ops).
Proof.
  induction ops as [|o ops IH]; intros w l; cbn [PQModel.run run]; [reflexivity|]. rewrite (step_pure w).
  unfold drop at 1. destruct (step pure debug w l o) as [[[l1 w1] r]| |]; cbn [bind]; try reflexivity. rewrite (IH w1). unfold drop.
  destruct (run pure debug w1 l1 ops) as [[[l2 w2] rs]| |]; reflexivity.
Qed.
End Pure.

(** Totals. *)
Lemma log2_mono a b : a <= b -> Nat.log2 a <= Nat.log2 b.
Proof. apply Nat.log2_le_mono. Qed.
Section Totals.
Variable T St : Type.
Variable cmp : St -> T -> T -> bool * St.
Variable debug : bool.
Notation full := (full T).
Lemma adds_cost : forall xs (w : world T St) L, exists L' w' outs, run cmp debug w (full L) (map PAdd xs) = Ok (full L', w', outs) /\
  length L' = length L + length xs /\ length (calls w') <= length (calls w) + length xs * Nat.log2 (length L + length xs).
Proof.
  induction xs as [|x xs IH]; intros w L; cbn [map run length].
  - exists L, w, []. split; [reflexivity|]. lia.
  - destruct (step_ok T St cmp debug w L (PAdd x) I) as (L1 & w1 & r & cs & E & _ & C & Le & _ & Len). rewrite E. cbn [bind].
    destruct (IH w1 L1) as (L2 & w2 & outs & E2 & Len2 & C2). rewrite E2. cbn [bind].
    exists L2, w2, (r :: outs). split; [reflexivity|]. split; [lia|]. rewrite C, app_length, Len in C2. cbn [bound] in Le.
    pose proof (log2_mono (length L + 1) (length L + S (length xs)) ltac:(lia)).
    replace (S (length L) + length xs) with (length L + S (length xs)) in C2 by lia. lia.
Qed.
Lemma pops_cost : forall n (w : world T St) L, n = length L -> exists w' outs, run cmp debug w (full L) (repeat PPop n) = Ok ([], w', outs) /\
  length (calls w') <= length (calls w) + n * (2 * Nat.log2 n).
Proof.
  induction n as [|n IH]; intros w L Hn; cbn [repeat run].
  - destruct L; [|discriminate]. exists w, []. split; [reflexivity|]. lia.
  - assert (H0 : 0 < length L) by lia. destruct (step_ok T St cmp debug w L PPop H0) as (L1 & w1 & r & cs & E & _ & C & Le & _ & Len). rewrite E. cbn [bind].
    destruct (IH w1 L1) as (w2 & outs & E2 & C2); [lia|]. rewrite E2. cbn [bind].
    exists w2, (r :: outs). split; [reflexivity|]. rewrite C, app_length in C2. cbn [bound] in Le.
    pose proof (log2_mono n (S n) ltac:(lia)). pose proof (log2_mono (length L - 1) (S n) ltac:(lia)).
    assert (n * (2 * Nat.log2 n) <= n * (2 * Nat.log2 (S n))) by (apply Nat.mul_le_mono_l; lia). lia.
Qed.
Lemma run_app : forall a (w : world T St) l b, run cmp debug w l (a ++ b) =
  do (l1, w1, r1) <- run cmp debug w l a; do (l2, w2, r2) <- run cmp debug w1 l1 b; Ok (l2, w2, r1 ++ r2).
Proof.
  induction a as [|o a IH]; intros w l b; cbn [app run].
  - cbn [bind]. destruct (run cmp debug w l b) as [[[l2 w2] r2]| |]; reflexivity.
  - destruct (step cmp debug w l o) as [[[l1 w1] r]| |]; cbn [bind]; try reflexivity. rewrite IH.
    destruct (run cmp debug w1 l1 a) as [[[l2 w2] r2]| |]; cbn [bind]; try reflexivity.
    destruct (run cmp debug w2 l2 b) as [[[l3 w3] r3]| |]; reflexivity.
Qed.
End Totals.

(** The worst case. *)
Section Worst.
Variable T : Type.
Variable debug : bool.
Definition yes (_ : unit) (_ _ : T) : bool * unit := (true, tt).
Notation full := (full T).
Lemma up_worst : forall fuel (w : world T unit) L c key, c < fuel -> nth_error L c = Some key ->
  exists l' c' w', up_loop yes debug fuel w (upd (full L) c None) c key = Ok (l', c', w') /\
    length l' = length L /\ c' < length L /\ length (calls w') = length (calls w) + Nat.log2 (c + 1).
Proof.
  induction fuel as [|f IH]; intros w L c key Hf Hk; [lia|]. cbn [up_loop]. pose proof (nth_lt _ _ _ Hk) as Hl.
  destruct (Nat.eqb_spec c 0) as [->|Hc].
  - eexists _, _, _. split; [reflexivity|]. rewrite upd_length, full_length. cbn. lia.
  - rewrite parentOf_ok by lia. cbn [bind]. set (p := (c - 1) / 2).
    assert (Hp : p < c) by (unfold p; apply Nat.div_lt_upper_bound; lia).
    destruct (nth_ex L p ltac:(lia)) as [pv Hpv]. rewrite (val_hole _ L p c pv) by (auto; lia). cbn [bind ask yes negb].
    unfold take. rewrite (val_hole _ L p c pv) by (auto; lia). cbn [bind].
    unfold put. rewrite slot_set_ok by (rewrite !upd_length, full_length; lia). cbn [bind].
    assert (E : upd (upd (upd (full L) c None) p None) c (Some pv) = upd (full (swp T L c p key pv)) p None).
    { unfold swp. rewrite <- !upd_full. rewrite (upd_comm _ c p) by lia. rewrite upd_upd.
      rewrite (upd_comm _ c p (Some pv)) by lia.
      rewrite (upd_comm (upd (full L) p (Some key)) c p) by lia. now rewrite upd_upd. }
    rewrite E. unfold ask, yes. destruct (IH (World tt ((key, pv) :: calls w)) (swp T L c p key pv) p key) as (l' & c' & w' & E' & A & B & C).
    { lia. }
    { rewrite (swp_nth T (fun _ _ => false)) by lia. destruct (Nat.eqb_spec p c); [lia|]. now rewrite Nat.eqb_refl. }
    rewrite swp_length in A, B. exists l', c', w'. split; [exact E'|]. split; [exact A|]. split; [exact B|].
    rewrite C. cbn [calls length]. rewrite (log2_half (c + 1)) by lia.
    replace ((c + 1) / 2) with (p + 1). { lia. }
    unfold p. replace (c + 1) with (c - 1 + 1 * 2) by lia. rewrite Nat.div_add by lia. reflexivity.
Qed.
Lemma add_worst (w : world T unit) L x : exists q' w', add yes debug w (full L) x = Ok (q', w') /\
  length (calls w') = length (calls w) + Nat.log2 (length L + 1).
Proof.
  unfold add. assert (E : full L ++ [Some x] = full (L ++ [x])) by (unfold full, PQProofs.full; now rewrite map_app).
  rewrite E, full_length, app_length. cbn [length].
  destruct (Nat.ltb_spec 1 (length L + 1)) as [Hl|Hl].
  - unfold propagateUp, take. replace (length L + 1 - 1) with (length L) by lia.
    assert (Hk : nth_error (L ++ [x]) (length L) = Some x) by (rewrite nth_error_app2, Nat.sub_diag by lia; reflexivity).
    rewrite (val_full _ _ _ _ Hk). cbn [bind].
    destruct (up_worst (S (length L)) w (L ++ [x]) (length L) x ltac:(lia) Hk) as (l' & c' & w' & E' & A & B & C).
    rewrite E'. cbn [bind]. unfold put. rewrite slot_set_ok by (rewrite A; exact B). cbn [bind]. eauto.
  - eexists _, _. split; [reflexivity|]. replace (length L) with 0 by lia. cbn. lia.
Qed.
Lemma down_worst k : forall fuel (w : world T unit) L j c, c + 2 = 2 ^ S j -> S j <= k -> length L = 2 ^ k - 1 -> length L - c < fuel ->
  exists l' w', down_loop yes fuel w (full L) c = Ok (l', w') /\ length (calls w') = length (calls w) + 2 * (k - S j).
Proof.
  induction fuel as [|f IH]; intros w L j c Hc Hj HL Hf; [lia|]. cbn [down_loop].
  unfold hasLeftChild, hasRightChild, leftChildOf, rightChildOf. rewrite full_length.
  assert (P1 : 2 ^ S (S j) = 2 * (c + 2)) by (rewrite Nat.pow_succ_r', Hc; reflexivity).
  destruct (Nat.eq_dec (S j) k) as [<-|Hne].
  - destruct (Nat.ltb_spec (c * 2 + 1) (length L)); [lia|]. eexists _, _. split; [reflexivity|]. lia.
  - assert (P2 : 2 ^ S (S j) <= 2 ^ k) by (apply Nat.pow_le_mono_r; lia).
    destruct (Nat.ltb_spec (c * 2 + 1) (length L)) as [H1|H1]; [|lia].
    destruct (Nat.ltb_spec (c * 2 + 2) (length L)) as [H2|H2]; [|lia].
    destruct (nth_ex L c ltac:(lia)) as [cv Hcv]. destruct (nth_ex L _ H1) as [lv Hlv]. destruct (nth_ex L _ H2) as [rv Hrv].
    rewrite (val_full _ L _ rv Hrv), (val_full _ L _ lv Hlv). cbn [bind ask yes].
    rewrite (val_full _ L _ rv Hrv), (val_full _ L _ cv Hcv). cbn [bind ask yes negb].
    rewrite put_full by lia. cbn [bind]. rewrite put_full by (rewrite upd_length; lia). cbn [bind].
    destruct (IH (World tt ((rv, cv) :: (rv, lv) :: calls w)) (upd (upd L (c * 2 + 2) cv) c rv) (S j) (c * 2 + 2)) as (l' & w' & E & C).
    + rewrite P1. lia.
    + lia.
    + rewrite !upd_length. exact HL.
    + rewrite !upd_length. lia.
    + exists l', w'. split; [exact E|]. rewrite C. cbn [calls length]. lia.
Qed.
Lemma pop_worst k (w : world T unit) L : 0 < k -> length L = 2 ^ k -> exists x q' w', pop yes debug w (full L) = Ok (x, q', w') /\
  length (calls w') = length (calls w) + 2 * Nat.log2 (length L - 1).
Proof.
  intros Hk HL. assert (K2 : 2 <= 2 ^ k) by (change 2 with (2 ^ 1) at 1; apply Nat.pow_le_mono_r; lia).
  destruct L as [|x L]; [cbn in HL; lia|]. cbn [length] in HL.
  unfold pop. unfold assert_. cbn [PQProofs.full map empty negb]. rewrite andb_false_r. cbn [bind].
  unfold take at 1. unfold val, slot_get. cbn [nth_error bind upd length].
  destruct L as [|y L _] using rev_ind; [cbn in HL; lia|].
  change (map Some (L ++ [y])) with (full (L ++ [y])). rewrite full_length, app_length in *. cbn [length] in *.
  destruct (Nat.eqb_spec (S (length L + 1)) 1); [lia|].
  unfold take. assert (V : val T (None :: full (L ++ [y])) (S (length L + 1) - 1) = Ok y).
  { unfold val, slot_get. replace (S (length L + 1) - 1) with (S (length L)) by lia. cbn [nth_error].
    rewrite nth_full, nth_error_app2, Nat.sub_diag by lia. reflexivity. }
  rewrite V. cbn [bind]. unfold put. rewrite slot_set_ok by (rewrite upd_length; cbn [length]; lia). cbn [bind].
  assert (E : removelast (upd (upd (None :: full (L ++ [y])) (S (length L + 1) - 1) None) 0 (Some y)) = full (y :: L)).
  { replace (S (length L + 1) - 1) with (S (length L)) by lia. cbn [upd].
    assert (X : upd (full (L ++ [y])) (length L) None = full L ++ [None]).
    { unfold PQProofs.full. clear. induction L as [|a L IH]; cbn; [reflexivity|]. now rewrite IH. }
    rewrite X. change (Some y :: full L ++ [None]) with ((Some y :: full L) ++ [None]). rewrite removelast_app1. reflexivity. }
  rewrite E. unfold propagateDown. rewrite full_length.
  destruct (down_worst k (S (length (y :: L))) w (y :: L) 0 0) as (l' & w' & E' & C).
  { reflexivity. } { lia. } { cbn [length]. lia. } { lia. }
  rewrite E'. cbn [bind]. eexists _, _, _. split; [reflexivity|]. rewrite C.
  replace (S (length L + 1) - 1) with (2 ^ k - 1) by lia.
  replace (Nat.log2 (2 ^ k - 1)) with (k - 1); [lia|]. symmetry. rewrite Nat.sub_1_r, Nat.log2_pred_pow2 by lia. lia.
Qed.
End Worst.
