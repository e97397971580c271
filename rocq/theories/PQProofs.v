(** Heap invariants of PriorityQueue. *)
From Verif Require Import Base BitsProofs PQModel PQSpec.
Ltac Zify.zify_post_hook ::= Z.to_euclidean_division_equations.

Section Proofs.
Variable T : Type.
Variable hp : T -> T -> bool.
Variable debug : bool.
Notation up_loop := (up_loop T hp debug).
Notation down_loop := (down_loop T hp).
Notation par i := ((i - 1) / 2).

(** *** lists of options without holes *)
Definition full (L : list T) : pq T := map Some L.
Lemma full_length L : length (full L) = length L.
Proof. apply map_length. Qed.
Lemma nth_full L i : nth_error (full L) i = option_map Some (nth_error L i).
Proof. apply nth_error_map. Qed.
Lemma upd_full L i x : upd (full L) i (Some x) = full (upd L i x).
Proof. revert i; induction L as [|a L IH]; intros [|i]; cbn; auto. now rewrite IH. Qed.
Lemma upd_upd {A} (l : list A) i x y : upd (upd l i x) i y = upd l i y.
Proof. revert i; induction l as [|a l IH]; intros [|i]; cbn; auto. now rewrite IH. Qed.
Lemma upd_comm {A} (l : list A) i j x y : i <> j -> upd (upd l i x) j y = upd (upd l j y) i x.
Proof. revert i j; induction l as [|a l IH]; intros [|i] [|j] H; cbn; auto; try lia. rewrite IH by lia. reflexivity. Qed.
Lemma upd_same {A} (l : list A) i x : nth_error l i = Some x -> upd l i x = l.
Proof. revert i; induction l as [|a l IH]; intros [|i] H; cbn in *; try discriminate; [congruence|]. now rewrite IH. Qed.
Lemma upd_perm {A} (l : list A) i x y : nth_error l i = Some x -> Permutation (y :: l) (x :: upd l i y).
Proof.
  revert i; induction l as [|a l IH]; intros [|i] H; cbn in *; try discriminate.
  - injection H as ->. apply perm_swap.
  - rewrite perm_swap, (IH _ H). apply perm_swap.
Qed.
(** Exchange of two elements. *)
Definition swp (L : list T) (i j : nat) (xi xj : T) : list T := upd (upd L i xj) j xi.
Lemma swp_perm L i j xi xj : i <> j -> nth_error L i = Some xi -> nth_error L j = Some xj ->
  Permutation (swp L i j xi xj) L.
Proof.
  intros Hij Hi Hj. unfold swp.
  apply (Permutation_cons_inv (a := xj)).
  etransitivity; [|symmetry; apply (upd_perm L i xi xj Hi)].
  etransitivity; [|symmetry; apply (upd_perm (upd L i xj) j xj xi); rewrite nth_error_upd_ne; auto].
  reflexivity.
Qed.
Lemma swp_length L i j a b : length (swp L i j a b) = length L.
Proof. unfold swp. now rewrite !upd_length. Qed.
Lemma swp_nth L i j xi xj k : i <> j -> i < length L -> j < length L ->
  nth_error (swp L i j xi xj) k =
  if k =? i then Some xj else if k =? j then Some xi else nth_error L k.
Proof.
  intros Hij Hi Hj. unfold swp. rewrite !nth_error_upd, upd_length.
  destruct (Nat.eqb_spec k i), (Nat.eqb_spec k j), (Nat.eqb_spec j k), (Nat.eqb_spec i k); subst; try lia; cbn [andb];
    rewrite ?(proj2 (Nat.ltb_lt _ _) Hi), ?(proj2 (Nat.ltb_lt _ _) Hj); reflexivity.
Qed.

Lemma nth_lt {A} (l : list A) i x : nth_error l i = Some x -> i < length l.
Proof. intros H. apply nth_error_Some. congruence. Qed.
Lemma nth_ex {A} (l : list A) i : i < length l -> exists x, nth_error l i = Some x.
Proof. intros H. destruct (nth_error l i) eqn:E; [eauto|]. apply nth_error_None in E. lia. Qed.

Lemma val_full L i x : nth_error L i = Some x -> val T (full L) i = Ok x.
Proof. intros H. unfold val. rewrite (slot_get_ok _ _ (Some x)); [reflexivity|]. now rewrite nth_full, H. Qed.
Lemma val_hole L i c x : i <> c -> nth_error L i = Some x -> val T (upd (full L) c None) i = Ok x.
Proof.
  intros Hne H. unfold val. rewrite (slot_get_ok _ _ (Some x)); [reflexivity|].
  rewrite nth_error_upd_ne by auto. now rewrite nth_full, H.
Qed.
Lemma put_full L i x : i < length L -> put T (full L) i x = Ok (full (upd L i x)).
Proof. intros H. unfold put. rewrite slot_set_ok by now rewrite full_length. now rewrite upd_full. Qed.

(** *** heaps *)
Definition heap (L : list T) : Prop :=
  forall i x p, 0 < i -> nth_error L i = Some x -> nth_error L (par i) = Some p -> hp x p = false.
Definition upinv (L : list T) (c : nat) : Prop :=
  (forall i x p, 0 < i -> i <> c -> nth_error L i = Some x -> nth_error L (par i) = Some p -> hp x p = false) /\
  (forall i x p, 0 < i -> 0 < c -> par i = c -> nth_error L i = Some x -> nth_error L (par c) = Some p -> hp x p = false).
Definition downinv (L : list T) (c : nat) : Prop :=
  (forall i x p, 0 < i -> par i <> c -> nth_error L i = Some x -> nth_error L (par i) = Some p -> hp x p = false) /\
  (forall i x p, 0 < i -> 0 < c -> par i = c -> nth_error L i = Some x -> nth_error L (par c) = Some p -> hp x p = false).

Section Order.
Hypothesis swo : strict_weak_order hp.
Lemma asym a b : hp a b = true -> hp b a = false.
Proof.
  destruct swo as (Hi & Ht & _). intros H. destruct (hp b a) eqn:E; [|reflexivity].
  pose proof (Ht a b a H E) as X. rewrite Hi in X. discriminate.
Qed.
Lemma ntrans a b c : hp a b = false -> hp b c = false -> hp a c = false.
Proof. destruct swo as (_ & _ & H). apply H. Qed.

Lemma up_step L c key pv : upinv L c -> 0 < c -> nth_error L c = Some key -> nth_error L (par c) = Some pv ->
  hp key pv = true -> upinv (swp L c (par c) key pv) (par c).
Proof.
  intros [H1 H2] Hc Hk Hp Hhp. pose proof (nth_lt _ _ _ Hk). pose proof (nth_lt _ _ _ Hp).
  assert (Hne : c <> par c) by lia. pose proof (asym _ _ Hhp) as Ha.
  split.
  - intros i x p Hi Hip Hx Hpp. rewrite swp_nth in Hx, Hpp by auto.
    destruct (Nat.eqb_spec i c) as [->|Hic].
    + injection Hx as <-. destruct (Nat.eqb_spec (par c) c); [lia|]. destruct (Nat.eqb_spec (par c) (par c)); [|lia].
      injection Hpp as <-. exact Ha.
    + destruct (Nat.eqb_spec i (par c)); [lia|].
      destruct (Nat.eqb_spec (par i) c) as [Epc|Epc].
      * injection Hpp as <-. eapply H2; eauto.
      * destruct (Nat.eqb_spec (par i) (par c)) as [Epp|Epp].
        -- injection Hpp as <-. apply (ntrans _ pv); [|exact Ha]. eapply H1; eauto. now rewrite Epp.
        -- eapply H1; eauto.
  - intros i x p Hi Hpos Epi Hx Hpp. rewrite swp_nth in Hx, Hpp by auto.
    destruct (Nat.eqb_spec (par (par c)) c); [lia|]. destruct (Nat.eqb_spec (par (par c)) (par c)); [lia|].
    assert (Hpg : hp pv p = false) by (apply (H1 (par c)); auto).
    destruct (Nat.eqb_spec i c) as [->|Hic].
    + injection Hx as <-. exact Hpg.
    + destruct (Nat.eqb_spec i (par c)); [lia|]. apply (ntrans _ pv); [|exact Hpg].
      apply (H1 i x pv); auto. now rewrite Epi.
Qed.

Lemma down_step L c b cv bv : downinv L c -> 0 < b -> par b = c -> nth_error L c = Some cv -> nth_error L b = Some bv ->
  hp bv cv = true -> (forall s sv, 0 < s -> par s = c -> nth_error L s = Some sv -> hp sv bv = false) ->
  downinv (swp L b c bv cv) b.
Proof.
  intros [H1 H2] Hb Epb Hc Hbv Hhp Hsib. pose proof (nth_lt _ _ _ Hc). pose proof (nth_lt _ _ _ Hbv).
  assert (Hne : b <> c) by lia. pose proof (asym _ _ Hhp) as Ha.
  split.
  - intros i x p Hi Hip Hx Hpp. rewrite swp_nth in Hx, Hpp by auto.
    destruct (Nat.eqb_spec (par i) b); [lia|].
    destruct (Nat.eqb_spec i b) as [->|Hib].
    + injection Hx as <-. rewrite Epb in Hpp. destruct (Nat.eqb_spec c c); [|lia]. injection Hpp as <-. exact Ha.
    + destruct (Nat.eqb_spec i c) as [->|Hic].
      * injection Hx as <-. destruct (Nat.eqb_spec (par c) c); [lia|]. eapply (H2 b); eauto.
      * destruct (Nat.eqb_spec (par i) c) as [Epc|Epc].
        -- injection Hpp as <-. eapply Hsib; eauto.
        -- eapply H1; eauto.
  - intros i x p Hi Hpos Epi Hx Hpp. rewrite swp_nth in Hx, Hpp by auto.
    rewrite Epb in Hpp. destruct (Nat.eqb_spec c b); [lia|]. destruct (Nat.eqb_spec c c); [|lia].
    injection Hpp as <-. destruct (Nat.eqb_spec i b); [lia|]. destruct (Nat.eqb_spec i c); [lia|].
    apply (H1 i); auto; [lia|]. now rewrite Epi.
Qed.

Lemma heap_root L x y : heap L -> nth_error L 0 = Some x -> In y L -> hp y x = false.
Proof.
  intros H Hx Hy. apply In_nth_error in Hy as [i Hi]. revert y Hi.
  induction i as [i IH] using lt_wf_ind. intros y Hi. destruct (Nat.eq_dec i 0) as [->|Hz].
  - rewrite Hx in Hi. injection Hi as <-. apply swo.
  - destruct (nth_ex L (par i)) as [p Hp]; [pose proof (nth_lt _ _ _ Hi); lia|].
    apply (ntrans _ p); [apply (H i y p); auto; lia|]. apply (IH (par i)); [lia|exact Hp].
Qed.
End Order.

(** *** the loops *)
Lemma up_ok : forall fuel L c key, c < fuel -> nth_error L c = Some key ->
  exists L' c', up_loop fuel (upd (full L) c None) c key = Ok (upd (full L') c' None, c') /\
    nth_error L' c' = Some key /\ Permutation L' L /\ (strict_weak_order hp -> upinv L c -> heap L').
Proof.
  induction fuel as [|f IH]; intros L c key Hf Hk; [lia|]. cbn [PQModel.up_loop].
  destruct (Nat.eqb_spec c 0) as [->|Hc].
  - exists L, 0. repeat split; auto. intros _ [H1 _] i x p Hi. apply H1; auto. lia.
  - unfold parentOf.
    pose proof (nth_lt _ _ _ Hk) as Hlt.
    destruct (nth_ex L (par c)) as [pv Hpv]; [lia|].
    rewrite (proj2 (Nat.ltb_lt 0 c)) by lia. unfold assert_. rewrite andb_false_r. cbn [bind].
    rewrite (val_hole L (par c) c pv) by (auto; lia). cbn [bind].
    destruct (hp key pv) eqn:Eh; cbn [negb].
    + unfold take. rewrite (val_hole L (par c) c pv) by (auto; lia). cbn [bind].
      unfold put. rewrite slot_set_ok by now rewrite !upd_length, full_length.
      cbn [bind].
      assert (El : upd (upd (upd (full L) c None) (par c) None) c (Some pv) =
                   upd (full (swp L c (par c) key pv)) (par c) None).
      { unfold swp. rewrite <- !upd_full. rewrite (upd_comm _ c (par c)) by lia. rewrite upd_upd.
        rewrite (upd_comm _ c (par c) (Some pv)) by lia.
        rewrite (upd_comm (upd (full L) (par c) (Some key)) c (par c)) by lia. now rewrite upd_upd. }
      rewrite El.
      destruct (IH (swp L c (par c) key pv) (par c) key) as (L' & c' & E & Hk' & HP & HH).
      { lia. }
      { rewrite swp_nth by lia. destruct (Nat.eqb_spec (par c) c); [lia|]. now rewrite Nat.eqb_refl. }
      exists L', c'. split; [exact E|]. split; [exact Hk'|]. split.
      * rewrite HP. apply swp_perm; auto; lia.
      * intros So Hu. apply HH; [exact So|]. apply up_step; auto; lia.
    + exists L, c. repeat split; auto. intros _ [H1 _] i x p Hi Hx Hp.
      destruct (Nat.eq_dec i c) as [->|Hne]; [|eapply H1; eauto]. congruence.
Qed.

Lemma down_ok : forall fuel L c, length L - c < fuel -> c < length L ->
  exists L', down_loop fuel (full L) c = Ok (full L') /\ Permutation L' L /\
    (strict_weak_order hp -> downinv L c -> heap L').
Proof.
  induction fuel as [|f IH]; intros L c Hf Hc; [lia|]. cbn [PQModel.down_loop].
  unfold hasLeftChild, hasRightChild, leftChildOf, rightChildOf. rewrite full_length.
  destruct (nth_ex L c Hc) as [cv Hcv].
  destruct (Nat.ltb_spec (c * 2 + 1) (length L)) as [Hl|Hl].
  - destruct (nth_ex L _ Hl) as [lv Hlv].
    assert (Hbest : exists best bv, par best = c /\ 0 < best /\ nth_error L best = Some bv /\
      (strict_weak_order hp -> forall s sv, 0 < s -> par s = c -> nth_error L s = Some sv -> hp sv bv = false) /\
      (if c * 2 + 2 <? length L
       then do r <- val T (full L) (c * 2 + 2); do b <- val T (full L) (c * 2 + 1);
            Ok (if hp r b then c * 2 + 2 else c * 2 + 1)
       else Ok (c * 2 + 1)) = Ok best).
    { destruct (Nat.ltb_spec (c * 2 + 2) (length L)) as [Hr|Hr].
      - destruct (nth_ex L _ Hr) as [rv Hrv].
        rewrite (val_full _ _ _ Hrv), (val_full _ _ _ Hlv). cbn [bind].
        destruct (hp rv lv) eqn:E.
        + exists (c * 2 + 2), rv. repeat split; auto; try lia.
          intros So s sv Hs Eps Hsv. assert (s = c * 2 + 1 \/ s = c * 2 + 2) as [-> | ->] by lia.
          * rewrite Hlv in Hsv. injection Hsv as <-. now apply asym.
          * rewrite Hrv in Hsv. injection Hsv as <-. apply So.
        + exists (c * 2 + 1), lv. repeat split; auto; try lia.
          intros So s sv Hs Eps Hsv. assert (s = c * 2 + 1 \/ s = c * 2 + 2) as [-> | ->] by lia.
          * rewrite Hlv in Hsv. injection Hsv as <-. apply So.
          * rewrite Hrv in Hsv. injection Hsv as <-. exact E.
      - exists (c * 2 + 1), lv. repeat split; auto; try lia.
        intros So s sv Hs Eps Hsv. pose proof (nth_lt _ _ _ Hsv).
        assert (s = c * 2 + 1) as -> by lia. rewrite Hlv in Hsv. injection Hsv as <-. apply So. }
    destruct Hbest as (best & bv & Epb & Hb0 & Hbv & Hsib & ->). cbn [bind].
    rewrite (val_full _ _ _ Hbv), (val_full _ _ _ Hcv). cbn [bind].
    destruct (hp bv cv) eqn:Eh; cbn [negb].
    + pose proof (nth_lt _ _ _ Hbv) as Hblt.
      rewrite put_full by auto. cbn [bind]. rewrite put_full by now rewrite upd_length. cbn [bind].
      fold (swp L best c bv cv).
      destruct (IH (swp L best c bv cv) best) as (L' & E & HP & HH).
      { rewrite swp_length. lia. }
      { now rewrite swp_length. }
      exists L'. split; [exact E|]. split.
      * rewrite HP. apply swp_perm; auto. lia.
      * intros So Hd. apply HH; [exact So|]. apply down_step; auto; exact (Hsib So).
    + exists L. repeat split; auto. intros So [H1 _] i x p Hi Hx Hp.
      destruct (Nat.eq_dec (par i) c) as [E|E]; [|eapply H1; eauto].
      apply (ntrans So _ bv); [eapply Hsib; eauto|]. rewrite E in Hp. congruence.
  - exists L. repeat split; auto. intros _ [H1 _] i x p Hi Hx Hp.
    pose proof (nth_lt _ _ _ Hx). apply (H1 i x p); auto. lia.
Qed.

(** *** operations *)
Lemma add_ok L x : exists L', add T hp debug (full L) x = Ok (full L') /\ Permutation L' (x :: L) /\
  (strict_weak_order hp -> heap L -> heap L').
Proof.
  unfold add. assert (E : full L ++ [Some x] = full (L ++ [x])) by (unfold full; now rewrite map_app).
  rewrite E, full_length, app_length. cbn [length].
  destruct (Nat.ltb_spec 1 (length L + 1)) as [Hl|Hl].
  - unfold propagateUp, take.
    replace (length L + 1 - 1) with (length L) by lia.
    assert (Hk : nth_error (L ++ [x]) (length L) = Some x) by (rewrite nth_error_app2, Nat.sub_diag by lia; reflexivity).
    rewrite (val_full _ _ _ Hk). cbn [bind].
    destruct (up_ok (S (length L)) (L ++ [x]) (length L) x ltac:(lia) Hk) as (L' & c' & -> & Hk' & HP & HH).
    cbn [bind]. unfold put. pose proof (nth_lt _ _ _ Hk').
    rewrite slot_set_ok by now rewrite upd_length, full_length.
    exists L'. split.
    + f_equal. rewrite upd_upd, upd_full. f_equal. now apply upd_same.
    + split.
      * rewrite HP. symmetry. apply Permutation_cons_append.
      * intros So Hh. apply HH; [exact So|]. split.
        -- intros i y p Hi Hne Hy Hp. pose proof (nth_lt _ _ _ Hy) as Hlt. rewrite app_length in Hlt. cbn in Hlt.
           rewrite nth_error_app1 in Hy by lia. rewrite nth_error_app1 in Hp by lia. eapply Hh; eauto.
        -- intros i y p Hi Hc Ep Hy _. pose proof (nth_lt _ _ _ Hy) as Hlt. rewrite app_length in Hlt. cbn in Hlt. lia.
  - destruct L; [|cbn in Hl; lia]. exists [x]. repeat split; auto.
    intros _ _ i y p Hi Hy. pose proof (nth_lt _ _ _ Hy). cbn in *. lia.
Qed.

Lemma removelast_app1 {A} (l : list A) x : removelast (l ++ [x]) = l.
Proof. rewrite removelast_app by discriminate. cbn. apply app_nil_r. Qed.

Lemma pop_ok x L : exists L', pop T hp debug (full (x :: L)) = Ok (x, full L') /\ Permutation L' L /\
  (strict_weak_order hp -> heap (x :: L) -> heap L').
Proof.
  unfold pop. unfold assert_. cbn [full map empty negb]. rewrite andb_false_r. cbn [bind].
  unfold take at 1. unfold val, slot_get. cbn [nth_error bind upd length].
  destruct L as [|y L] using rev_ind.
  - cbn. exists []. repeat split; auto. intros _ _ i z p Hi Hz. destruct i; discriminate.
  - clear IHL. rewrite map_length, app_length. cbn [length].
    replace (S (length L + 1) =? 1) with false by (symmetry; apply Nat.eqb_neq; lia).
    replace (S (length L + 1) - 1) with (S (length L)) by lia.
    unfold take, val.
    rewrite (slot_get_ok _ _ (Some y)).
    2:{ cbn [nth_error]. rewrite nth_error_map, nth_error_app2, Nat.sub_diag by lia. reflexivity. }
    cbn [bind]. unfold put. rewrite slot_set_ok by (cbn; rewrite upd_length; cbn; lia).
    cbn [bind upd].
    assert (E : removelast (Some y :: upd (map Some (L ++ [y])) (length L) None) = full (y :: L)).
    { rewrite map_app. cbn [map].
      assert (Eu : upd (map Some L ++ [Some y]) (length L) None = map Some L ++ [None]).
      { clear. induction L as [|a L IH]; [reflexivity|]. cbn. now rewrite IH. }
      rewrite Eu. change (Some y :: map Some L ++ [None]) with ((Some y :: map Some L) ++ [@None T]).
      now rewrite removelast_app1. }
    rewrite E. unfold propagateDown. rewrite full_length.
    destruct (down_ok (S (length (y :: L))) (y :: L) 0) as (L' & -> & HP & HH); [cbn; lia|cbn; lia|].
    cbn [bind]. exists L'. split; [reflexivity|]. split.
    + rewrite HP. apply Permutation_cons_append.
    + intros So Hh. apply HH; [exact So|]. split.
      * intros i z p Hi Hne Hz Hp. destruct i as [|i]; [lia|]. cbn [nth_error] in Hz.
        assert (exists q, par (S i) = S q) as [q Eq] by (exists (par (S i) - 1); lia). rewrite Eq in Hp. cbn [nth_error] in Hp.
        pose proof (nth_lt _ _ _ Hz). pose proof (nth_lt _ _ _ Hp).
        apply (Hh (S i) z p); [lia| |].
        -- cbn [nth_error]. now rewrite nth_error_app1.
        -- rewrite Eq. cbn [nth_error]. now rewrite nth_error_app1.
      * intros i z p Hi Hc. lia.
Qed.

Definition ordered_ok (b : bool) (L : list T) : Prop := b = true -> strict_weak_order hp /\ heap L.

Lemma step_ok b L o : ordered_ok b L ->
  (match o with PPop | PPeek => 0 < length L | _ => True end) ->
  exists L' r, step hp debug (full L) o = Ok (full L', r) /\ bag_step T hp b L o r L' /\ ordered_ok b L' /\
    length L' = match o with PAdd _ => S (length L) | PPop => length L - 1 | _ => length L end.
Proof.
  intros Hb Hleg. destruct o as [x| | | |]; cbn [step bag_step].
  - destruct (add_ok L x) as (L' & -> & HP & HH). cbn [bind]. exists L', RNone.
    split; [reflexivity|]. split; [auto|]. split.
    + intros E. destruct (Hb E). auto.
    + now rewrite (Permutation_length HP).
  - destruct L as [|x L]; [cbn in Hleg; lia|].
    destruct (pop_ok x L) as (L' & -> & HP & HH). cbn [bind]. exists L', (RVal x). split; [reflexivity|].
    split; [|split].
    + exists x. split; [reflexivity|]. split; [|now rewrite HP].
      unfold best. destruct b; [|now left]. destruct (Hb eq_refl) as [So Hh]. split; [now left|].
      intros y Hy. eapply heap_root; eauto.
    + intros E. destruct (Hb E) as [So Hh]. auto.
    + rewrite (Permutation_length HP). cbn. lia.
  - destruct L as [|x L]; [cbn in Hleg; lia|]. exists (x :: L), (RVal x).
    unfold peek, assert_. cbn [full map empty negb]. rewrite andb_false_r. cbn [bind].
    unfold val, slot_get. cbn [nth_error bind]. split; [reflexivity|]. split; [|auto].
    exists x. split; [reflexivity|]. split; [|reflexivity].
    unfold best. destruct b; [|now left]. destruct (Hb eq_refl) as [So Hh]. split; [now left|].
    intros y Hy. eapply heap_root; eauto.
  - exists L, (RBool (empty T (full L))). split; [reflexivity|]. split; [|auto]. split; [|reflexivity].
    now destruct L.
  - exists L, RNone. auto.
Qed.

Lemma run_ok b : forall ops L, ordered_ok b L -> legal (length L) ops ->
  exists L' outs, run hp debug (full L) ops = Ok (full L', outs) /\ bag_run hp b L ops outs L'.
Proof.
  induction ops as [|o ops IH]; intros L Hb Hl.
  - exists L, []. split; [reflexivity|constructor].
  - destruct (step_ok b L o Hb) as (L1 & r & E & Hs & Hb1 & Hlen).
    { destruct o; cbn in Hl; tauto. }
    destruct (IH L1 Hb1) as (L' & outs & E' & Hr).
    { rewrite Hlen. destruct o; cbn in Hl |- *; tauto. }
    exists L', (r :: outs). cbn [PQModel.run]. rewrite E. cbn [bind]. rewrite E'. cbn [bind]. split; [reflexivity|].
    econstructor; eauto.
Qed.

Lemma heap_nil : heap [].
Proof. intros i x p _ H. destruct i; discriminate. Qed.

Lemma add_all_ok : forall xs L, exists L', add_all T hp debug (full L) xs = Ok (full L') /\ Permutation L' (xs ++ L) /\
  (strict_weak_order hp -> heap L -> heap L').
Proof.
  induction xs as [|x xs IH]; intros L.
  - exists L. repeat split; auto.
  - cbn [add_all]. destruct (add_ok L x) as (L1 & -> & HP & HH). cbn [bind].
    destruct (IH L1) as (L' & E & HP' & HH'). exists L'. split; [exact E|]. split.
    + rewrite HP', HP. symmetry. apply Permutation_middle.
    + auto.
Qed.

Lemma drain_ok : forall fuel L, length L < fuel ->
  exists xs, drain T hp debug fuel (full L) = Ok xs /\ Permutation xs L /\
    (strict_weak_order hp -> heap L -> sorted hp xs).
Proof.
  induction fuel as [|f IH]; intros L Hf; [lia|]. cbn [drain].
  destruct L as [|x L].
  - cbn [full map empty]. exists []. repeat split; auto. intros _ _ i j a b _ H. destruct i; discriminate.
  - cbn [full map empty]. destruct (pop_ok x L) as (L' & E & HP & HH).
    unfold full at 1 in E. cbn [map] in E. rewrite E. cbn [bind].
    destruct (IH L') as (xs & E' & HP' & HS). { rewrite (Permutation_length HP). cbn in Hf. lia. }
    rewrite E'. cbn [bind]. exists (x :: xs). split; [reflexivity|]. split.
    + now rewrite HP', HP.
    + intros So Hh [|i] [|j] a b Hij Ha Hb; try lia; cbn [nth_error] in *.
      * injection Ha as <-. apply (heap_root So (x :: L) x b Hh eq_refl).
        apply nth_error_In in Hb. right. eapply Permutation_in; [|exact Hb]. now rewrite HP', HP.
      * apply (HS So (HH So Hh) i j a b); auto. lia.
Qed.

Lemma sort_ok xs : exists ys, sort_with hp debug xs = Ok ys /\ Permutation ys xs /\
  (strict_weak_order hp -> sorted hp ys).
Proof.
  unfold sort_with. destruct (add_all_ok xs []) as (L & E & HP & HH). cbn [full map] in E. rewrite E. cbn [bind].
  rewrite full_length. destruct (drain_ok (S (length L)) L) as (ys & E' & HP' & HS); [lia|].
  exists ys. split; [exact E'|]. split.
  - now rewrite HP', HP, app_nil_r.
  - intros So. apply HS; auto. apply HH; auto. apply heap_nil.
Qed.

(** The precondition is necessary. *)
Lemma illegal_faults : forall ops L, ~ legal (length L) ops ->
  run hp debug (full L) ops = Fault (if debug then AssertFail else OutOfBounds).
Proof.
  induction ops as [|o ops IH]; intros L Hl; [exfalso; apply Hl; exact I|].
  cbn [PQModel.run].
  assert (Hdec : (match o with PPop | PPeek => 0 < length L | _ => True end) \/ ((o = PPop \/ o = PPeek) /\ L = [])).
  { destruct o; auto; (destruct L; [right; auto|left; cbn; lia]). }
  destruct Hdec as [Hok|[[-> | ->] ->]].
  - destruct (step_ok false L o) as (L1 & r & E & _ & _ & Hlen); [discriminate|exact Hok|].
    rewrite E. cbn [bind]. rewrite IH; [reflexivity|]. intros Hl'. apply Hl. rewrite Hlen in Hl'.
    destruct o; cbn; auto.
  - cbn. now destruct debug.
  - cbn. now destruct debug.
Qed.
End Proofs.
