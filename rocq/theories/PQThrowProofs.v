(** Proofs for PQThrowProps.v: a queue is a bag of cells, some of them moved from. *)
From Verif Require Import Base PQModel PQSpec PQProofs PQCostModel PQThrowModel PQThrowSpec.

Section PT.
Variable T : Type.
Variable St : Type.
Variable cmp : St -> T -> T -> option bool * St.
Variable debug : bool.
Notation pq := (list (option T)).
Notation up_loop := (up_loop cmp debug).
Notation down_loop := (down_loop cmp).

Lemma val_cases (l : pq) i : i < length l ->
  (exists x, val T l i = Ok x /\ nth_error l i = Some (Some x)) \/ (val T l i = Fault MovedFrom /\ nth_error l i = Some None).
Proof.
  intros H. destruct (nth_ex l i H) as [[x|] E]; [left; exists x|right]; unfold val, slot_get; rewrite E; auto.
Qed.
Lemma parentOf_ok' c : 0 < c -> parentOf debug c = Ok ((c - 1) / 2).
Proof. intros H. unfold parentOf. rewrite (proj2 (Nat.ltb_lt 0 c) H). unfold assert_. rewrite andb_false_r. reflexivity. Qed.
Lemma half_lt c : 0 < c -> (c - 1) / 2 < c.
Proof. intros H. apply Nat.div_lt_upper_bound; lia. Qed.

(** The cells with [key] back in the hole at [c]. *)
Notation filled l c key := (upd l c (Some key)).

Lemma up_cells : forall fuel s (l : pq) c key, c < fuel -> nth_error l c = Some None ->
  (up_loop fuel s l c key = Fault MovedFrom /\ In None (filled l c key))
  \/ exists l' c' s' th, up_loop fuel s l c key = Ok (l', c', s', th)
       /\ nth_error l' c' = Some None /\ Permutation (filled l' c' key) (filled l c key).
Proof.
  induction fuel as [|f IH]; intros s l c key Hf Hc; [lia|]. cbn [PQThrowModel.up_loop].
  destruct (Nat.eqb_spec c 0) as [->|Hz]; [right; eauto 9|].
  rewrite parentOf_ok' by lia. cbn [bind]. pose proof (half_lt c ltac:(lia)) as Hp.
  set (p := (c - 1) / 2) in *. clearbody p. pose proof (nth_lt _ _ _ Hc) as Hlt.
  assert (Hother : forall o, nth_error l p = Some o -> nth_error (filled l c key) p = Some o).
  { intros o Ho. rewrite nth_error_upd_ne by lia. exact Ho. }
  destruct (val_cases l p ltac:(lia)) as [(pv & -> & Hpv)|(-> & Hpv)]; cbn [bind].
  - destruct (cmp s key pv) as [[[]|] s1]; [|right; eauto 9|right; eauto 9].
    unfold take. unfold val, slot_get. rewrite Hpv. cbn [bind]. unfold put. rewrite slot_set_ok by (rewrite upd_length; lia).
    cbn [bind]. set (l2 := upd (upd l p None) c (Some pv)).
    assert (Hn : nth_error l2 p = Some None).
    { unfold l2. rewrite upd_comm by lia. rewrite nth_error_upd_eq; [reflexivity|]. rewrite upd_length; lia. }
    assert (HP : Permutation (filled l2 p key) (filled l c key)).
    { assert (E : filled l2 p key = swp (option T) (filled l c key) p c (Some pv) (Some key)).
      { unfold l2, swp. rewrite (upd_comm _ c p) by lia. rewrite (upd_upd l p).
        rewrite (upd_comm l c p) by lia. rewrite upd_upd. reflexivity. }
      rewrite E. apply swp_perm; [lia|exact (Hother _ Hpv)|]. apply nth_error_upd_eq. lia. }
    destruct (IH s1 l2 p key ltac:(lia) Hn) as [(E & Hh)|(l' & c' & s' & th & E & Hc' & HP')].
    + left. split; [exact E|]. exact (Permutation_in _ HP Hh).
    + right. exists l', c', s', th. split; [exact E|]. split; [exact Hc'|]. rewrite HP'. exact HP.
  - left. split; [reflexivity|]. eapply nth_error_In, Hother, Hpv.
Qed.

Lemma put_swap (l : pq) b c bv cv : b <> c -> b < length l -> c < length l ->
  (do l1 <- put T l b cv; put T l1 c bv) = Ok (swp (option T) l b c (Some bv) (Some cv)).
Proof.
  intros Hne Hb Hc. unfold put. rewrite slot_set_ok by exact Hb. cbn [bind].
  rewrite slot_set_ok by (rewrite upd_length; exact Hc). reflexivity.
Qed.

Lemma down_cells : forall fuel s (l : pq) c, length l - c < fuel -> c < length l ->
  (down_loop fuel s l c = Fault MovedFrom /\ In None l)
  \/ exists l' s' th, down_loop fuel s l c = Ok (l', s', th) /\ Permutation l' l.
Proof.
  induction fuel as [|f IH]; intros s l c Hf Hc; [lia|]. cbn [PQThrowModel.down_loop].
  unfold hasLeftChild, hasRightChild, leftChildOf, rightChildOf.
  destruct (Nat.ltb_spec (c * 2 + 1) (length l)) as [Hl|Hl]; [|right; eauto].
  assert (Hno : forall i, nth_error l i = Some None -> In None l) by (intros i H; eapply nth_error_In; exact H).
  assert (Hgo : forall s1 best, c < best < length l ->
    (do b <- val T l best; do c0 <- val T l c;
       (let '(r, s) := cmp s1 b c0 in
        match r with
        | Some true => do l1 <- put T l best c0; do l2 <- put T l1 c b; down_loop f s l2 best
        | Some false => Ok (l, s, false)
        | None => Ok (l, s, true)
        end)) = Fault MovedFrom /\ In None l
    \/ exists l' s' th, (do b <- val T l best; do c0 <- val T l c;
       (let '(r, s) := cmp s1 b c0 in
        match r with
        | Some true => do l1 <- put T l best c0; do l2 <- put T l1 c b; down_loop f s l2 best
        | Some false => Ok (l, s, false)
        | None => Ok (l, s, true)
        end)) = Ok (l', s', th) /\ Permutation l' l).
  { intros s1 best Hb.
    destruct (val_cases l best ltac:(lia)) as [(bv & -> & Hbv)|(-> & Hbv)]; cbn [bind]; [|left; eauto].
    destruct (val_cases l c ltac:(lia)) as [(cv & -> & Hcv)|(-> & Hcv)]; cbn [bind]; [|left; eauto].
    destruct (cmp s1 bv cv) as [[[]|] s2]; [|right; eauto|right; eauto].
    unfold put. rewrite slot_set_ok by lia. cbn [bind]. rewrite slot_set_ok by (rewrite upd_length; lia). cbn [bind].
    assert (HP : Permutation (upd (upd l best (Some cv)) c (Some bv)) l).
    { apply (swp_perm (option T) l best c (Some bv) (Some cv)); auto. lia. }
    destruct (IH s2 (upd (upd l best (Some cv)) c (Some bv)) best) as [(E & Hh)|(l' & s' & th & E & HP')].
    { rewrite !upd_length. lia. }
    { rewrite !upd_length. lia. }
    - left. split; [exact E|]. exact (Permutation_in _ HP Hh).
    - right. exists l', s', th. split; [exact E|]. rewrite HP'. exact HP. }
  destruct (Nat.ltb_spec (c * 2 + 2) (length l)) as [Hr|Hr]; [|cbn [bind]; apply Hgo; lia].
  destruct (val_cases l (c * 2 + 2) Hr) as [(rv & -> & Hrv)|(-> & Hrv)]; cbn [bind]; [|left; eauto].
  destruct (val_cases l (c * 2 + 1) Hl) as [(lv & -> & Hlv)|(-> & Hlv)]; cbn [bind]; [|left; eauto].
  destruct (cmp s rv lv) as [[b|] s1]; cbn [option_map bind]; [|right; eauto].
  destruct b; apply Hgo; lia.
Qed.

(** What one call does to the cells. *)
Lemma upd_last (l : pq) x y : upd (l ++ [x]) (length l) y = l ++ [y].
Proof. induction l as [|h l IH]; [reflexivity|]. cbn. now rewrite IH. Qed.

Lemma nth_last (l : pq) x : nth_error (l ++ [x]) (length l) = Some x.
Proof. rewrite nth_error_app2 by lia. rewrite Nat.sub_diag. reflexivity. Qed.

Lemma add_cells s (l : pq) x :
  (add cmp debug s l x = Fault MovedFrom /\ In None l)
  \/ (exists l' s', add cmp debug s l x = Ok (l', s', false) /\ Permutation l' (Some x :: l))
  \/ (exists l' s', add cmp debug s l x = Ok (l', s', true) /\ Permutation l' (None :: l) /\ l <> []).
Proof.
  unfold add, propagateUp. rewrite app_length. cbn [length].
  destruct (Nat.ltb_spec 1 (length l + 1)) as [Hn|Hn].
  - replace (length l + 1 - 1) with (length l) by lia.
    unfold take, val, slot_get. rewrite nth_last. cbn [bind]. rewrite upd_last.
    assert (HPx : forall o : option T, Permutation (l ++ [o]) (o :: l)) by (intros; symmetry; apply Permutation_cons_append).
    destruct (up_cells (S (length l)) s (l ++ [None]) (length l) x ltac:(lia) (nth_last _ _))
      as [(E & Hh)|(l' & c' & s' & th & E & Hc' & HP)]; rewrite upd_last in *; rewrite E; cbn [bind].
    + left. split; [reflexivity|]. apply in_app_or in Hh as [H|[H|[]]]; [exact H|discriminate].
    + pose proof (nth_lt _ _ _ Hc') as Hlt. destruct th.
      * right; right. exists l', s'. split; [reflexivity|]. split; [|intros ->; cbn in Hn; lia].
        apply (Permutation_cons_inv (a := Some x)).
        rewrite (upd_perm l' c' None (Some x) Hc'). rewrite HP, HPx. apply perm_swap.
      * right; left. unfold put. rewrite slot_set_ok by exact Hlt. cbn [bind].
        exists (filled l' c' x), s'. split; [reflexivity|]. rewrite HP. apply HPx.
  - right; left. destruct l; [|cbn in Hn; lia]. exists [Some x], s. split; [reflexivity|apply Permutation_refl].
Qed.

Definition pop_post (l : pq) (e : outcome (T * pq * St * bool)) : Prop :=
  (e = Fault MovedFrom /\ In None l)
  \/ exists x l' s' th, e = Ok (x, l', s', th) /\ Permutation l (Some x :: l').
Lemma pop_cells s (l : pq) : l <> [] -> pop_post l (pop cmp debug s l).
Proof.
  intros Hne. destruct l as [|o l]; [congruence|]. clear Hne. unfold pop, empty, assert_. cbn [negb]. rewrite andb_false_r.
  cbn [bind]. unfold take at 1. unfold val at 1, slot_get at 1. cbn [nth_error bind].
  destruct o as [x|]; [|left; split; [reflexivity|left; reflexivity]].
  cbn [bind upd]. destruct l as [|y l _] using rev_ind.
  - right. exists x, [], s, false. split; reflexivity.
  - cbn [length]. rewrite app_length. cbn [length].
    replace (S (length l + 1) =? 1) with false by (symmetry; apply Nat.eqb_neq; lia).
    replace (S (length l + 1) - 1) with (S (length l)) by lia.
    unfold take, val, slot_get. cbn [nth_error]. rewrite nth_last.
    destruct y as [y|]; cbn [bind]; [|left; split; [reflexivity|right; apply in_or_app; right; left; reflexivity]].
    cbn [upd]. rewrite upd_last. unfold put. rewrite slot_set_ok by (cbn; lia). cbn [bind upd].
    change (Some y :: l ++ [None]) with ((Some y :: l) ++ [@None T]). rewrite removelast_app1.
    unfold propagateDown.
    destruct (down_cells (S (length (Some y :: l))) s (Some y :: l) 0) as [(E & Hh)|(l' & s' & th & E & HP)];
      [cbn; lia|cbn; lia| |]; rewrite E; cbn [bind].
    + left. split; [reflexivity|]. destruct Hh as [|Hh]; [discriminate|]. right. apply in_or_app. now left.
    + right. exists x, l', s', th. split; [reflexivity|]. apply perm_skip. rewrite HP. symmetry. apply Permutation_cons_append.
Qed.

(** One call, on cells. *)
Definition cell_step (q : pq) (o : op T) (r : xout T) (q' : pq) : Prop :=
  match o with
  | PAdd x => (r = Out RNone /\ Permutation q' (Some x :: q)) \/ (r = Threw /\ Permutation q' (None :: q) /\ q <> [])
  | PPop => exists x, (r = Out (RVal x) \/ r = Threw) /\ Permutation q (Some x :: q')
  | PPeek => exists x, r = Out (RVal x) /\ In (Some x) q /\ q' = q
  | PEmpty => r = Out (RBool (match q with [] => true | _ => false end)) /\ q' = q
  | PMove => r = Out RNone /\ q' = q
  end.
Definition may_call (q : pq) (o : op T) : Prop := match o with PPop | PPeek => q <> [] | _ => True end.

Lemma step_cells s q o : may_call q o ->
  (step cmp debug s q o = Fault MovedFrom /\ In None q)
  \/ exists q' s' r, step cmp debug s q o = Ok (q', s', r) /\ cell_step q o r q'.
Proof.
  destruct o as [x| | | |]; cbn [may_call step cell_step]; intros Hm.
  - destruct (add_cells s q x) as [(E & H)|[(q' & s' & E & H)|(q' & s' & E & H)]]; rewrite E; cbn [bind]; [left; auto|right|right];
      eexists _, _, _; (split; [reflexivity|]); auto.
  - destruct (pop_cells s q Hm) as [(E & H)|(x & q' & s' & th & E & H)]; rewrite E; cbn [bind]; [left; auto|right].
    eexists _, _, _. split; [reflexivity|]. exists x. split; [destruct th; auto|exact H].
  - destruct q as [|[x|] q]; [congruence| |]; unfold peek, assert_; cbn [empty negb]; rewrite andb_false_r; cbn.
    + right. eexists _, _, _. split; [reflexivity|]. exists x. auto.
    + left. auto.
  - right. eexists _, _, _. split; [reflexivity|]. destruct q; auto.
  - right. eexists _, _, _. split; [reflexivity|]. auto.
Qed.

(** Lengths. *)
Lemma cell_step_length q o r q' : cell_step q o r q' ->
  length q' = match o with PAdd _ => S (length q) | PPop => length q - 1 | _ => length q end.
Proof.
  destruct o; cbn.
  - intros [[_ H]|[_ [H _]]]; apply Permutation_length in H; exact H.
  - intros (x & _ & H). apply Permutation_length in H. cbn in H. lia.
  - intros (x & _ & _ & ->). reflexivity.
  - intros [_ ->]. reflexivity.
  - intros [_ ->]. reflexivity.
Qed.
Lemma legal_cons n o ops q : n = length q -> legal n (o :: ops) ->
  may_call q o /\ forall r q', cell_step q o r q' -> legal (length q') ops.
Proof.
  intros -> H. split.
  - destruct o; cbn in *; auto; destruct q; cbn in *; try lia; discriminate.
  - intros r q' Hc. rewrite (cell_step_length _ _ _ _ Hc). destruct o; cbn in *; tauto.
Qed.

Lemma run_moved : forall ops s q f, legal (length q) ops -> run cmp debug s q ops = Fault f -> f = MovedFrom.
Proof.
  induction ops as [|o ops IH]; intros s q f HL E; [discriminate|].
  destruct (legal_cons _ o ops q eq_refl HL) as [Hm Hn]. cbn [run] in E.
  destruct (step_cells s q o Hm) as [(E1 & _)|(q' & s' & r & E1 & Hc)]; rewrite E1 in E; cbn [bind] in E; [congruence|].
  destruct (run cmp debug s' q' ops) as [[[? ?] ?]|f'|] eqn:E2; cbn [bind] in E; try discriminate.
  injection E as <-. eapply IH; [|exact E2]. eauto.
Qed.
Lemma run_total : forall ops s q, legal (length q) ops -> run cmp debug s q ops <> Diverge.
Proof.
  induction ops as [|o ops IH]; intros s q HL E; [discriminate|].
  destruct (legal_cons _ o ops q eq_refl HL) as [Hm Hn]. cbn [run] in E.
  destruct (step_cells s q o Hm) as [(E1 & _)|(q' & s' & r & E1 & Hc)]; rewrite E1 in E; cbn [bind] in E; [congruence|].
  destruct (run cmp debug s' q' ops) as [[[? ?] ?]| |] eqn:E2; cbn [bind] in E; try discriminate.
  eapply IH; [|exact E2]. eauto.
Qed.

(** A moved-from cell never goes away. *)
Lemma hole_stays q o r q' : cell_step q o r q' -> In None q -> In None q'.
Proof.
  intros Hc Hh. destruct o; cbn in Hc.
  - destruct Hc as [[_ H]|[_ [H _]]]; eapply Permutation_in; try (symmetry; exact H); right; exact Hh.
  - destruct Hc as (x & _ & H). apply (Permutation_in _ H) in Hh as [X|X]; [discriminate|exact X].
  - destruct Hc as (x & _ & _ & ->). exact Hh.
  - destruct Hc as [_ ->]. exact Hh.
  - destruct Hc as [_ ->]. exact Hh.
Qed.
Lemma run_hole : forall ops s q q' s' rs, legal (length q) ops -> In None q ->
  run cmp debug s q ops = Ok (q', s', rs) -> In None q'.
Proof.
  induction ops as [|o ops IH]; intros s q q' s' rs HL Hh E; cbn [run] in E; [injection E as <- <- <-; exact Hh|].
  destruct (legal_cons _ o ops q eq_refl HL) as [Hm Hn].
  destruct (step_cells s q o Hm) as [(E1 & _)|(q1 & s1 & r & E1 & Hc)]; rewrite E1 in E; cbn [bind] in E; [discriminate|].
  destruct (run cmp debug s1 q1 ops) as [[[q2 s2] rs2]| |] eqn:E2; cbn [bind] in E; try discriminate.
  injection E as <- <- <-. eapply IH; [eauto| |exact E2]. eapply hole_stays; eauto.
Qed.

(** ** Bags *)
Lemma holds_nohole q S : holds q S -> ~ In (@None T) q.
Proof.
  intros H Hn. apply (Permutation_in _ H), in_map_iff in Hn as (x & X & _). discriminate.
Qed.
Lemma nohole_holds (q : pq) : ~ In None q -> exists S, q = map Some S.
Proof.
  induction q as [|[x|] q IH]; intros H; [exists []; reflexivity| |].
  - destruct IH as [S ->]; [intros X; apply H; now right|]. exists (x :: S). reflexivity.
  - exfalso. apply H. now left.
Qed.
Lemma map_some_perm (S S' : list T) : Permutation (map Some S) (map Some S') -> Permutation S S'.
Proof.
  intros H. apply Permutation_map_inv in H as (l & E & H). assert (S = l) as ->; [|now symmetry].
  clear H. revert l E. induction S as [|x S IH]; destruct l; cbn; intros E; try discriminate; [reflexivity|].
  injection E as -> E. f_equal. auto.
Qed.

Lemma cell_bag q o r q' S : holds q S -> cell_step q o r q' -> (forall x, (o, r) <> (PAdd x, Threw)) ->
  exists S', holds q' S' /\ xbag_step S o r S'.
Proof.
  unfold holds. intros HS Hc Hr. destruct o as [x| | | |]; cbn in Hc.
  - destruct Hc as [[-> H]|[-> _]]; [|now destruct (Hr x)].
    exists (x :: S). split; [rewrite H; apply perm_skip, HS|]. cbn. auto.
  - destruct Hc as (x & Hx & H).
    destruct (nohole_holds q') as [S' ->].
    { intros Hn. apply (holds_nohole q S HS). apply (Permutation_in _ (Permutation_sym H)). now right. }
    exists S'. split; [reflexivity|].
    assert (HP : Permutation S (x :: S')) by (apply map_some_perm; rewrite <- HS; exact H).
    destruct Hx as [-> | ->]; cbn.
    + exists x. split; [reflexivity|]. split; [|exact HP]. apply (Permutation_in x (Permutation_sym HP)). now left.
    + split; [reflexivity|]. eauto.
  - destruct Hc as (x & -> & Hin & ->). exists S. split; [exact HS|]. cbn. exists x. split; [reflexivity|].
    split; [|apply Permutation_refl]. apply (Permutation_in _ HS), in_map_iff in Hin as (y & E & Hy). now injection E as ->.
  - destruct Hc as [-> ->]. exists S. split; [exact HS|]. cbn. split; [|apply Permutation_refl].
    apply Permutation_length in HS. rewrite map_length in HS. destruct q, S; try discriminate; reflexivity.
  - destruct Hc as [-> ->]. exists S. split; [exact HS|]. cbn. auto.
Qed.

Lemma run_bag : forall ops s q S, legal (length q) ops -> holds q S ->
  (exists q' s' rs S', run cmp debug s q ops = Ok (q', s', rs) /\ holds q' S' /\ xbag_run S ops rs S')
  \/ exists pre x post q1 s1 rs S1 q2 s2, ops = pre ++ PAdd x :: post
       /\ run cmp debug s q pre = Ok (q1, s1, rs) /\ holds q1 S1 /\ xbag_run S pre rs S1
       /\ step cmp debug s1 q1 (PAdd x) = Ok (q2, s2, Threw).
Proof.
  induction ops as [|o ops IH]; intros s q S HL HS.
  - left. exists q, s, [], S. split; [reflexivity|]. split; [exact HS|constructor].
  - destruct (legal_cons _ o ops q eq_refl HL) as [Hm Hn].
    destruct (step_cells s q o Hm) as [(_ & Hh)|(q1 & s1 & r & E1 & Hc)]; [now apply (holds_nohole q S HS) in Hh|].
    assert (Hd : (exists x, (o, r) = (PAdd x, Threw)) \/ forall x, (o, r) <> (PAdd x, Threw)).
    { destruct o as [y| | | |]; [|right; congruence|right; congruence|right; congruence|right; congruence].
      destruct r; [right; congruence|left; eauto]. }
    destruct Hd as [[x Ex]|Hd].
    + injection Ex as -> ->. right. exists [], x, ops, q, s, [], S, q1, s1.
      split; [reflexivity|]. split; [reflexivity|]. split; [exact HS|]. split; [constructor|exact E1].
    + destruct (cell_bag q o r q1 S HS Hc Hd) as (S1 & HS1 & Hb).
      destruct (IH s1 q1 S1 (Hn _ _ Hc) HS1) as [(q' & s' & rs & S' & E & H' & Hr)
                                                 |(pre & x & post & q2 & s2 & rs & S2 & q3 & s3 & -> & E & H' & Hr & Et)].
      * left. exists q', s', (r :: rs), S'. cbn [run]. rewrite E1. cbn [bind]. rewrite E. cbn [bind].
        split; [reflexivity|]. split; [exact H'|]. econstructor; eauto.
      * right. exists (o :: pre), x, post, q2, s2, (r :: rs), S2, q3, s3. split; [reflexivity|].
        cbn [run]. rewrite E1. cbn [bind]. rewrite E. cbn [bind].
        split; [reflexivity|]. split; [exact H'|]. split; [econstructor; eauto|exact Et].
Qed.

(** ** Nothing thrown: the queue of PQCostModel.v *)
Definition answers (s : St) (a b : T) : bool * St :=
  (match fst (cmp s a b) with Some b => b | None => false end, snd (cmp s a b)).
Definition strip {A} (x : outcome (A * world T St)) : outcome (A * St) := do (a, w) <- x; Ok (a, cst w).

Lemma up_same : forall fuel s cs l c key l' c' s',
  up_loop fuel s l c key = Ok (l', c', s', false) ->
  strip (PQCostModel.up_loop answers debug fuel (World s cs) l c key) = Ok (l', c', s').
Proof.
  induction fuel as [|f IH]; intros s cs l c key l' c' s' E; [discriminate|].
  cbn [PQThrowModel.up_loop PQCostModel.up_loop] in *.
  destruct (c =? 0); [injection E as <- <- <-; reflexivity|].
  destruct (parentOf debug c) as [p| |]; try discriminate. cbn [bind] in *.
  destruct (val T l p) as [pv| |]; try discriminate. cbn [bind] in *.
  unfold PQCostModel.ask. cbn [cst calls]. unfold answers at 1. destruct (cmp s key pv) as [[[]|] s1]; try discriminate; cbn [fst snd negb].
  - destruct (take T l p) as [[x l1]| |]; try discriminate. cbn [bind] in *.
    destruct (put T l1 c x) as [l2| |]; try discriminate. cbn [bind] in *. apply IH, E.
  - injection E as <- <- <-. reflexivity.
Qed.

Lemma down_same : forall fuel s cs l c l' s',
  down_loop fuel s l c = Ok (l', s', false) ->
  strip (PQCostModel.down_loop answers fuel (World s cs) l c) = Ok (l', s').
Proof.
  induction fuel as [|f IH]; intros s cs l c l' s' E; [discriminate|].
  cbn [PQThrowModel.down_loop PQCostModel.down_loop] in *.
  destruct (hasLeftChild T l c); [|injection E as <- <-; reflexivity].
  assert (Hgo : forall s1 cs1 best,
    (do b <- val T l best; do c0 <- val T l c;
       (let '(r, s) := cmp s1 b c0 in
        match r with
        | Some true => do l1 <- put T l best c0; do l2 <- put T l1 c b; down_loop f s l2 best
        | Some false => Ok (l, s, false)
        | None => Ok (l, s, true)
        end)) = Ok (l', s', false) ->
    strip (do b <- val T l best; do c0 <- val T l c;
        let '(r, w) := PQCostModel.ask answers (World s1 cs1) b c0 in
        if negb r then Ok (l, w)
        else do l1 <- put T l best c0; do l2 <- put T l1 c b; PQCostModel.down_loop answers f w l2 best) = Ok (l', s')).
  { intros s1 cs1 best X.
    destruct (val T l best) as [b| |]; try discriminate. cbn [bind] in *.
    destruct (val T l c) as [c0| |]; try discriminate. cbn [bind] in *.
    unfold PQCostModel.ask. cbn [cst calls]. unfold answers at 1.
    destruct (cmp s1 b c0) as [[[]|] s2]; try discriminate; cbn [fst snd negb]; [|injection X as <- <-; reflexivity].
    destruct (put T l best c0) as [l1| |]; try discriminate. cbn [bind] in *.
    destruct (put T l1 c b) as [l2| |]; try discriminate. cbn [bind] in *. apply IH, X. }
  destruct (hasRightChild T l c); [|cbn [bind] in *; apply Hgo, E].
  destruct (val T l (rightChildOf c)) as [r| |]; try discriminate. cbn [bind] in *.
  destruct (val T l (leftChildOf c)) as [b| |]; try discriminate. cbn [bind] in *.
  unfold PQCostModel.ask at 1. cbn [cst calls]. unfold answers at 1.
  destruct (cmp s r b) as [[x|] s1]; cbn [fst snd option_map bind] in *; [|discriminate].
  destruct x; apply Hgo, E.
Qed.

Lemma step_same s cs l o l' s' r : step cmp debug s l o = Ok (l', s', Out r) ->
  exists cs', PQCostModel.step answers debug (World s cs) l o = Ok (l', World s' cs', r).
Proof.
  destruct o as [x| | | |]; cbn [step PQCostModel.step]; intros E.
  - unfold add, propagateUp, PQCostModel.add, PQCostModel.propagateUp in *.
    destruct (1 <? length (l ++ [Some x])).
    + destruct (take T (l ++ [Some x]) (length (l ++ [Some x]) - 1)) as [[key l1]| |]; try discriminate. cbn [bind] in *.
      destruct (up_loop _ s l1 _ key) as [[[[l2 c'] s2] []]| |] eqn:Eu; cbn [bind] in E; try discriminate.
      apply (up_same _ s cs) in Eu.
      destruct (PQCostModel.up_loop _ _ _ (World s cs) l1 _ key) as [[[l3 c3] w3]| |]; cbn in Eu; try discriminate.
      injection Eu as -> -> <-. cbn [bind].
      destruct (put T l2 c' key) as [l4| |]; cbn [bind] in *; try discriminate. injection E as <- <- <-.
      destruct w3. eauto.
    + cbn [bind] in *. injection E as <- <- <-. eauto.
  - unfold pop, propagateDown, PQCostModel.pop, PQCostModel.propagateDown in *.
    destruct (assert_ debug (negb (empty T l))) as [[]| |]; try discriminate. cbn [bind] in *.
    destruct (take T l 0) as [[top l1]| |]; try discriminate. cbn [bind] in *.
    destruct (length l1 =? 1); [cbn [bind] in *; injection E as <- <- <-; eauto|].
    destruct (take T l1 (length l1 - 1)) as [[b l2]| |]; try discriminate. cbn [bind] in *.
    destruct (put T l2 0 b) as [l3| |]; try discriminate. cbn [bind] in *.
    destruct (down_loop _ s _ 0) as [[[l4 s4] []]| |] eqn:Ed; cbn [bind] in E; try discriminate.
    apply (down_same _ s cs) in Ed.
    destruct (PQCostModel.down_loop _ _ (World s cs) _ 0) as [[l5 w5]| |]; cbn in Ed; try discriminate.
    injection Ed as -> <-. cbn [bind]. injection E as <- <- <-. destruct w5. eauto.
  - destruct (peek T debug l); cbn [bind] in *; try discriminate. injection E as <- <- <-. eauto.
  - injection E as <- <- <-. eauto.
  - injection E as <- <- <-. eauto.
Qed.
Lemma run_same : forall ops s cs l l' s' rs, run cmp debug s l ops = Ok (l', s', map Out rs) ->
  exists cs', PQCostModel.run answers debug (World s cs) l ops = Ok (l', World s' cs', rs).
Proof.
  induction ops as [|o ops IH]; intros s cs l l' s' rs E; cbn [run PQCostModel.run] in *.
  - destruct rs; [|discriminate]. injection E as <- <-. eauto.
  - destruct (step cmp debug s l o) as [[[l1 s1] r]| |] eqn:E1; cbn [bind] in E; try discriminate.
    destruct (run cmp debug s1 l1 ops) as [[[l2 s2] rs2]| |] eqn:E2; cbn [bind] in E; try discriminate.
    destruct rs as [|r0 rs]; [discriminate|]. cbn [map] in E. injection E as -> -> -> ->.
    destruct (step_same s cs l o l1 s1 r0 E1) as [cs1 ->]. cbn [bind].
    destruct (IH s1 cs1 l1 l' s' rs E2) as [cs2 ->]. cbn [bind]. eauto.
Qed.
End PT.
