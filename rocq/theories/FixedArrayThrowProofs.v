(** Proofs for FixedArrayThrowProps.v. *)
From Verif Require Import Base FixedArrayThrowModel FixedArrayThrowSpec.

Section P.
Variable V : Type.
Variable dflt : V.
Variable throws : nat -> bool.
Notation state := (state V).

(** The slots of an array whose first i elements are built. *)
Definition built (l : list V) (i : nat) : block V := map Some (firstn i l) ++ repeat None (length l - i).

Lemma built_len l i : i <= length l -> length (built l i) = length l.
Proof. intros H. unfold built. rewrite app_length, map_length, firstn_length, repeat_length. lia. Qed.
Lemma built_0 l : built l 0 = repeat None (length l).
Proof. unfold built. cbn. rewrite Nat.sub_0_r. reflexivity. Qed.
Lemma built_all l : built l (length l) = map Some l.
Proof. unfold built. rewrite firstn_all, Nat.sub_diag, app_nil_r. reflexivity. Qed.

Lemma upd_app_mid {A} (a b : list A) x y i : length a = i -> upd (a ++ x :: b) i y = a ++ y :: b.
Proof. intros <-. induction a; cbn; congruence. Qed.
Lemma nth_app_mid {A} (a b : list A) x i : length a = i -> nth_error (a ++ x :: b) i = Some x.
Proof. intros <-. rewrite nth_error_app2, Nat.sub_diag; auto. Qed.

Lemma set_app_mid {A} (a b : list A) x y i : length a = i -> slot_set (a ++ x :: b) i y = Ok (a ++ y :: b).
Proof.
  intros H. unfold slot_set. rewrite (proj2 (Nat.ltb_lt _ _)) by (rewrite app_length, H; cbn; lia).
  rewrite (upd_app_mid _ _ _ _ _ H). reflexivity.
Qed.
Lemma get_app_mid {A} (a b : list A) x i : length a = i -> slot_get (a ++ x :: b) i = Ok x.
Proof. intros H. unfold slot_get. rewrite (nth_app_mid _ _ _ _ H). reflexivity. Qed.

Lemma firstn_S_nth (l : list V) i x : nth_error l i = Some x -> firstn (S i) l = firstn i l ++ [x].
Proof.
  revert i; induction l as [|h t IH]; intros [|i] H; cbn in *; try discriminate.
  - congruence.
  - f_equal. apply IH, H.
Qed.

Lemma place_ok l i x : nth_error l i = Some x -> place (Some (built l i)) i x = Ok (Some (built l (i + 1))).
Proof.
  intros H. pose proof (proj1 (nth_error_Some l i) ltac:(congruence)) as Hi.
  unfold place, slots; cbn [bind].
  assert (E : built l i = map Some (firstn i l) ++ None :: repeat None (length l - S i)).
  { unfold built. replace (length l - i) with (S (length l - S i)) by lia. reflexivity. }
  assert (EL : length (map (@Some V) (firstn i l)) = i) by (rewrite map_length, firstn_length; lia).
  rewrite E, (get_app_mid _ _ _ _ EL). cbn [bind]. rewrite (set_app_mid _ _ _ _ _ EL). cbn [bind].
  unfold built. rewrite Nat.add_1_r, (firstn_S_nth l i x H), map_app, <- app_assoc. reflexivity.
Qed.

Lemma construct_ok l val : forall k i n,
  i + k = length l -> (forall j, j < length l -> exists x, nth_error l j = Some x /\ val j = Ok x) ->
  construct_loop V throws k i n (Some (built l i)) val
  = Ok (Some (built l (i + succeed throws n k)), n + tried throws n k, all_ok throws n k).
Proof.
  intros k; induction k as [|k IH]; intros i n Hl Hv; cbn [construct_loop].
  - unfold all_ok, tried, all_ok; cbn. rewrite !Nat.add_0_r. reflexivity.
  - destruct (Hv i ltac:(lia)) as (x & Hx & ->). cbn [bind].
    unfold tried, all_ok; cbn [succeed]. destruct (throws n) eqn:Et; cbn [slots bind Nat.eqb].
    + rewrite Nat.add_0_r. f_equal. f_equal. f_equal. lia.
    + rewrite (place_ok l i x Hx). cbn [bind]. rewrite IH by (auto; lia).
      unfold tried, all_ok. replace (i + 1 + succeed throws (S n) k) with (i + S (succeed throws (S n) k)) by lia.
      cbn [Nat.eqb]. destruct (succeed throws (S n) k =? k); cbn [Nat.eqb];
        rewrite ?Nat.add_succ_l, ?Nat.add_succ_r; reflexivity.
Qed.

Lemma destruct_ok (l : list V) : forall pre,
  destruct_loop (length l) pre (Some (repeat None pre ++ map Some l)) = Ok (Some (repeat None (pre + length l))).
Proof.
  induction l as [|x l IH]; intros pre; cbn [destruct_loop length map].
  - rewrite app_nil_r, Nat.add_0_r. reflexivity.
  - unfold destroy, slots; cbn [bind].
    assert (EL : length (repeat (@None V) pre) = pre) by apply repeat_length.
    rewrite (get_app_mid _ _ _ _ EL). cbn [bind]. rewrite (set_app_mid _ _ _ _ _ EL). cbn [bind].
    replace (repeat None pre ++ None :: map Some l) with (repeat (@None V) (pre + 1) ++ map Some l).
    + rewrite IH. f_equal. f_equal. f_equal. lia.
    + rewrite repeat_app, <- app_assoc. reflexivity.
Qed.

Lemma dealloc_raw n : deallocate (Some (repeat (@None V) n)) = Ok tt.
Proof. cbn. replace (existsb _ _) with false; [reflexivity|]. induction n; cbn; auto. Qed.

Lemma elements_built l i : elements (built l i) = firstn i l.
Proof.
  unfold built, elements. rewrite flat_map_app.
  assert (A : forall t : list V, flat_map (fun x => match x with Some y => [y] | None => [] end) (map Some t) = t).
  { induction t; cbn; congruence. }
  assert (B : forall n, flat_map (fun x : option V => match x with Some y => [y] | None => [] end) (repeat None n) = []).
  { induction n; cbn; auto. }
  rewrite A, B, app_nil_r. reflexivity.
Qed.
Lemma elements_map l : elements (map (@Some V) l) = l.
Proof. rewrite <- built_all, elements_built, firstn_all. reflexivity. Qed.

Definition cell (x : meaning V) : option (arr V) :=
  match x with
  | Gone => None
  | Is b l => Some (Arr (length l) (if b then Some (map Some l) else None))
  | Shaky => None
  end.
Definition good (x : meaning V) : Prop :=
  match x with Gone => True | Is b l => b = false -> l = [] | Shaky => False end.
Definition inv (s : state) (m : env V) (k : nat) (ls : list (list V)) : Prop :=
  (forall v, vars s v = cell (m v)) /\ (forall v, good (m v)) /\ attempts s = k /\ map elements (leaked s) = ls.

Lemma inv_init : inv empty_state none 0 [].
Proof. repeat split; auto. Qed.

Lemma cell_put (s : state) m v a x :
  (forall u, vars s u = cell (m u)) -> a = cell x -> forall u, vars (set_var s v a) u = cell (put m v x u).
Proof. intros H -> u. cbn. unfold put. destruct (u =? v); auto. Qed.
Lemma good_put m v x : (forall u, good (m u)) -> good x -> forall u, good (put m v x u).
Proof. intros H Hx u. unfold put. destruct (u =? v); auto. Qed.

Lemma at_ok (s : state) m u b l : (forall v, vars s v = cell (m v)) -> m u = Is b l -> (b = false -> l = []) ->
  forall j, j < length l -> exists x, nth_error l j = Some x /\ at_ s u j = Ok x.
Proof.
  intros H E G j Hj. destruct (nth_error l j) as [x|] eqn:Ex; [|apply nth_error_None in Ex; lia].
  exists x. split; [reflexivity|]. unfold at_, get_arr. rewrite H, E. cbn.
  destruct b; [|rewrite G in Hj by reflexivity; cbn in Hj; lia].
  cbn. unfold slot_get. rewrite nth_error_map, Ex. reflexivity.
Qed.
Lemma slot_ok (l : list V) : forall j, j < length l -> exists x, nth_error l j = Some x /\ slot_get l j = Ok x.
Proof.
  intros j Hj. unfold slot_get. destruct (nth_error l j) as [x|] eqn:Ex; [eauto|].
  apply nth_error_None in Ex; lia.
Qed.
Lemma dflt_ok n : forall j, j < length (repeat dflt n) -> exists x, nth_error (repeat dflt n) j = Some x /\ Ok dflt = Ok x.
Proof.
  intros j Hj. exists dflt. split; [|reflexivity]. apply nth_error_repeat. rewrite repeat_length in Hj. exact Hj.
Qed.

Lemma build_ok (s : state) m k ls v l val m' n r l' :
  inv s m k ls -> (forall j, j < length l -> exists x, nth_error l j = Some x /\ val j = Ok x) ->
  ctor throws m k v l = Some (m', n, r, l') ->
  exists s', build V throws s v (length l) val = Ok (s', r) /\ inv s' m' (k + n) (ls ++ l').
Proof.
  intros (HC & HG & Hk & HL) Hv He. unfold ctor in He. destruct (m v) eqn:Ev; try discriminate.
  unfold build. rewrite <- (built_0 l), (construct_ok l val) by (auto; lia). cbn [bind].
  rewrite Hk. cbn [Nat.add]. destruct (all_ok throws k (length l)) eqn:Ea; injection He as <- <- <- <-.
  - eexists. split; [reflexivity|]. split; [|split; [|split]].
    + apply (cell_put (State (vars s) (k + tried throws k (length l)) (leaked s))); [exact HC|].
      cbn. apply Nat.eqb_eq in Ea. rewrite Ea, built_all. reflexivity.
    + apply good_put; [exact HG|]. discriminate.
    + reflexivity.
    + rewrite app_nil_r. exact HL.
  - eexists. split; [reflexivity|]. split; [|split; [|split]]; try assumption.
    + reflexivity.
    + unfold drop. cbn [leaked]. etransitivity; [apply map_app|]. f_equal; [exact HL|].
      cbn [map]. rewrite elements_built. reflexivity.
Qed.

Lemma destruct_arr b (l : list V) : (b = false -> l = []) ->
  destruct_loop (length l) 0 (if b then Some (map Some l) else None)
  = Ok (if b then Some (repeat None (length l)) else None).
Proof.
  intros G. destruct b; [apply (destruct_ok l 0)|]. rewrite G by reflexivity. reflexivity.
Qed.

Lemma step_ok (s : state) m k ls o m' n r l' :
  inv s m k ls -> bad_assign throws m k o = false ->
  expect dflt throws m k o = Some (m', n, r, l') ->
  exists s', step V dflt throws s o = Ok (s', r) /\ inv s' m' (k + n) (ls ++ l').
Proof.
  intros Hi Hb He. pose proof Hi as (HC & HG & Hk & HL).
  destruct o as [v|v c|v u|v u|v l|v u|v u|v i|v|v]; cbn -[Nat.eqb] in Hb, He; cbn -[Nat.eqb set_var attempts leaked vars deallocate].
  - destruct (m v) eqn:Ev; try discriminate. injection He as <- <- <- <-.
    unfold fresh_var. rewrite HC, Ev. cbn. eexists. split; [reflexivity|].
    rewrite app_nil_r, Nat.add_0_r. split; [|split; [|split]]; auto.
    + apply cell_put; auto.
    + apply good_put; cbn; auto.
  - assert (Ev : m v = Gone) by (unfold ctor in He; destruct (m v); auto; discriminate).
    unfold fresh_var. rewrite HC, Ev. cbn.
    destruct (build_ok s m k ls v (repeat dflt c) (fun _ => Ok dflt) m' n r l' Hi (dflt_ok c) He) as (s' & H & H').
    rewrite repeat_length in H. eauto.
  - destruct (m u) as [|b l|] eqn:Eu; try discriminate.
    assert (Ev : m v = Gone) by (unfold ctor in He; destruct (m v); auto; discriminate).
    unfold fresh_var. rewrite HC, Ev. cbn. unfold get_arr. rewrite HC, Eu. cbn.
    eapply build_ok; eauto. eapply at_ok; eauto. specialize (HG u). rewrite Eu in HG. exact HG.
  - destruct (m v) eqn:Ev; try discriminate. destruct (m u) as [|b l|] eqn:Eu; try discriminate.
    injection He as <- <- <- <-.
    unfold fresh_var, get_arr. rewrite !HC, Ev, Eu. cbn. eexists. split; [reflexivity|].
    rewrite app_nil_r, Nat.add_0_r. split; [|split; [|split]]; auto.
    + apply (cell_put (set_var s v _)); [|reflexivity]. apply cell_put; auto.
    + apply good_put; [|cbn; auto]. apply good_put; auto. specialize (HG u). rewrite Eu in HG. exact HG.
  - assert (Ev : m v = Gone) by (unfold ctor in He; destruct (m v); auto; discriminate).
    unfold fresh_var. rewrite HC, Ev. cbn. eapply build_ok; eauto. apply slot_ok.
  - destruct (Nat.eqb_spec v u) as [|Hn]; [discriminate|].
    pose proof (HG v) as Gv. pose proof (HG u) as Gu.
    destruct (m v) as [|bv lv|] eqn:Ev; try discriminate. destruct (m u) as [|bu lu|] eqn:Eu; try discriminate.
    apply negb_false_iff in Hb. rewrite Hb in He. injection He as <- <- <- <-. cbn in Gv, Gu.
    unfold get_arr at 1. rewrite HC, Ev. cbn [cell bind size_ data_]. rewrite (destruct_arr bv lv Gv). cbn [bind].
    unfold get_arr at 1. rewrite HC, Eu. cbn [cell bind size_].
    set (s1 := set_var s v _).
    assert (Hval : forall j, j < length lu -> exists x, nth_error lu j = Some x /\ at_ s1 u j = Ok x).
    { assert (Hat : forall j, at_ s1 u j = at_ s u j).
      { intros j. unfold at_, get_arr, s1, set_var. cbn. rewrite (proj2 (Nat.eqb_neq u v)) by auto. reflexivity. }
      intros j Hj. destruct (at_ok s m u bu lu HC Eu Gu j Hj) as (x & H1 & H2). exists x. rewrite Hat. auto. }
    assert (Hs1 : attempts s1 = k) by exact Hk.
    pose proof Hb as Hb'. apply Nat.eqb_eq in Hb'.
    assert (Hfin : forall d, d = (if if length lv =? length lu then bv else true then Some (map Some lu) else None) ->
      exists s', Ok (set_var (State (vars s1) (k + tried throws k (length lu)) (leaked s1)) v
                       (Some (Arr (length lu) d)), Done) = Ok (s', @Done V) /\
      inv s' (put m v (Is (if length lv =? length lu then bv else true) lu)) (k + tried throws k (length lu)) (ls ++ [])).
    { intros d ->. eexists. split; [reflexivity|]. split; [|split; [|split]].
      - intros w. unfold s1, set_var, put. cbn. destruct (w =? v); [reflexivity|apply HC].
      - apply good_put; [exact HG|]. cbn. destruct (Nat.eqb_spec (length lv) (length lu)) as [El|]; [|discriminate].
        intros ->. rewrite Gv in El by reflexivity. destruct lu; [reflexivity|discriminate].
      - reflexivity.
      - rewrite app_nil_r. exact HL. }
    destruct (Nat.eqb_spec (length lv) (length lu)) as [El|Hne]; cbn [bind].
    + destruct bv.
      * rewrite El, <- built_0, (construct_ok lu _ (length lu) 0) by (auto; lia). cbn [bind].
        rewrite Hs1, Hb', Hb. cbn [Nat.add]. rewrite built_all. apply Hfin. reflexivity.
      * rewrite Gv in El by reflexivity. destruct lu; [|discriminate]. cbn -[s1]. rewrite Hs1.
        specialize (Hfin None eq_refl). unfold tried, all_ok in Hfin. cbn -[s1] in Hfin.
        unfold tried, all_ok. cbn -[s1]. rewrite Nat.add_0_r in *. exact Hfin.
    + match goal with |- context[deallocate ?d] =>
        replace (deallocate d) with (@Ok unit tt) by (destruct bv; [symmetry; apply dealloc_raw|reflexivity]) end. cbn [bind]. rewrite <- built_0, (construct_ok lu _ (length lu) 0) by (auto; lia). cbn [bind].
      rewrite Hs1, Hb', Hb. cbn [Nat.add]. rewrite built_all. apply Hfin. reflexivity.
  - destruct (Nat.eqb_spec v u) as [|Hn]; [discriminate|].
    pose proof (HG v) as Gv. pose proof (HG u) as Gu.
    destruct (m v) as [|bv lv|] eqn:Ev; try discriminate. destruct (m u) as [|bu lu|] eqn:Eu; try discriminate.
    injection He as <- <- <- <-.
    unfold get_arr. rewrite !HC, Ev, Eu. cbn [cell bind data_]. eexists. split; [reflexivity|].
    split; [|split; [|split]].
    + apply (cell_put (set_var (drop s _) v _)); [|reflexivity]. apply cell_put; auto.
    + apply good_put; [|cbn; auto]. apply good_put; auto.
    + cbn. lia.
    + cbn. destruct bv; cbn; [|rewrite app_nil_r; exact HL].
      etransitivity; [apply map_app|]. f_equal; [exact HL|]. cbn [map]. rewrite elements_map. reflexivity.
  - destruct (m v) as [|b l|] eqn:Ev; try discriminate.
    destruct (nth_error l i) as [x|] eqn:Ex; [|discriminate]. injection He as <- <- <- <-.
    assert (Hl : i < length l) by (apply nth_error_Some; congruence).
    destruct (at_ok s m v b l HC Ev) with (j := i) as (y & Hy & ->); auto.
    { specialize (HG v). rewrite Ev in HG. exact HG. }
    cbn. exists s. split; [congruence|]. rewrite app_nil_r, Nat.add_0_r. exact Hi.
  - destruct (m v) as [|b l|] eqn:Ev; try discriminate. injection He as <- <- <- <-.
    unfold get_arr. rewrite HC, Ev. cbn. exists s. split; [reflexivity|]. rewrite app_nil_r, Nat.add_0_r. exact Hi.
  - pose proof (HG v) as Gv.
    destruct (m v) as [|b l|] eqn:Ev; try discriminate; [|contradiction]. injection He as <- <- <- <-.
    unfold get_arr. rewrite HC, Ev. cbn [cell bind size_ data_]. rewrite (destruct_arr b l Gv). cbn [bind].
    match goal with |- context[deallocate ?d] =>
      replace (deallocate d) with (@Ok unit tt) by (destruct b; [symmetry; apply dealloc_raw|reflexivity]) end. cbn [bind]. eexists. split; [reflexivity|]. rewrite app_nil_r, Nat.add_0_r.
    split; [|split; [|split]]; auto.
    + apply cell_put; auto.
    + apply good_put; cbn; auto.
Qed.

Lemma run_ok p : forall (s : state) m k ls m' rs l',
  inv s m k ls -> no_bad_assign dflt throws m k p = true -> expects dflt throws m k p = Some (m', rs, l') ->
  exists s', run V dflt throws s p = Ok (s', rs) /\ exists k', inv s' m' k' (ls ++ l').
Proof.
  induction p as [|o p IH]; intros s m k ls m' rs l' Hi Hn He; cbn in *.
  - injection He as <- <- <-. rewrite app_nil_r. eauto.
  - destruct (expect dflt throws m k o) as [[[[m1 n] r] l1]|] eqn:E; [|discriminate].
    apply andb_true_iff in Hn. destruct Hn as [Hb Hn]. apply negb_true_iff in Hb.
    destruct (expects dflt throws m1 (k + n) p) as [[[m2 rs2] l2]|] eqn:E2; [|discriminate]. injection He as <- <- <-.
    destruct (step_ok s m k ls o m1 n r l1 Hi Hb E) as (s1 & Hs & Hi1).
    rewrite Hs. cbn. destruct (IH s1 m1 (k + n) (ls ++ l1) m2 rs2 l2 Hi1 Hn E2) as (s2 & Hr & Hi2).
    rewrite Hr. cbn. rewrite app_assoc. eauto.
Qed.

(** destruct() over an array only partly rebuilt. *)
Lemma destruct_partial (l : list V) : forall pre k c, 0 < k ->
  destruct_loop (length l + k) pre (Some (repeat None pre ++ map Some l ++ repeat None (k + c))) = Fault DoubleFree.
Proof.
  induction l as [|x l IH]; intros pre k c Hk.
  - destruct k; [lia|]. cbn [length Nat.add destruct_loop map app repeat]. unfold destroy, slots. cbn [bind].
    rewrite (get_app_mid _ _ _ _ (repeat_length _ _)). reflexivity.
  - cbn [length Nat.add destruct_loop map app]. unfold destroy, slots. cbn [bind].
    rewrite (get_app_mid _ _ _ _ (repeat_length _ _)). cbn [bind].
    rewrite (set_app_mid _ _ _ _ _ (repeat_length _ _)). cbn [bind].
    replace (repeat None pre ++ None :: map Some l ++ repeat None (k + c))
      with (repeat (@None V) (pre + 1) ++ map Some l ++ repeat None (k + c)).
    + apply IH. exact Hk.
    + rewrite repeat_app, <- app_assoc. reflexivity.
Qed.
Lemma destruct_built l i : i < length l -> destruct_loop (length l) 0 (Some (built l i)) = Fault DoubleFree.
Proof.
  intros H. pose proof (destruct_partial (firstn i l) 0 (length l - i) 0 ltac:(lia)) as D.
  rewrite firstn_length, Nat.add_0_r in D. replace (Nat.min i (length l) + (length l - i)) with (length l) in D by lia.
  exact D.
Qed.

Lemma succeed_lt k n : all_ok throws k n = false -> succeed throws k n < n.
Proof.
  unfold all_ok. intros H. apply Nat.eqb_neq in H.
  assert (succeed throws k n <= n); [|lia]. clear H. revert k; induction n as [|n IH]; intros k; cbn; [lia|].
  destruct (throws k); [lia|]. specialize (IH (S k)). lia.
Qed.

(** A copy assignment that throws leaves an array whose destructor faults. *)
Lemma bad_assign_faults (s : state) m k ls v u :
  inv s m k ls -> bad_assign throws m k (AssignCopy v u) = true ->
  expect dflt throws m k (AssignCopy v u) <> None ->
  exists s', step V dflt throws s (AssignCopy v u) = Ok (s', Threw)
    /\ step V dflt throws s' (Destroy v) = Fault DoubleFree.
Proof.
  intros (HC & HG & Hk & HL) Hb He.
  cbn -[Nat.eqb] in Hb, He. cbn -[Nat.eqb set_var attempts leaked vars deallocate].
  destruct (Nat.eqb_spec v u) as [|Hn]; [congruence|].
  pose proof (HG v) as Gv. pose proof (HG u) as Gu.
  destruct (m v) as [|bv lv|] eqn:Ev; try congruence. destruct (m u) as [|bu lu|] eqn:Eu; try congruence.
  apply negb_true_iff in Hb. cbn in Gv, Gu.
  unfold get_arr at 1. rewrite HC, Ev. cbn [cell bind size_ data_]. rewrite (destruct_arr bv lv Gv). cbn [bind].
  unfold get_arr at 1. rewrite HC, Eu. cbn [cell bind size_].
  set (s1 := set_var s v _).
  assert (Hval : forall j, j < length lu -> exists x, nth_error lu j = Some x /\ at_ s1 u j = Ok x).
  { assert (Hat : forall j, at_ s1 u j = at_ s u j).
    { intros j. unfold at_, get_arr, s1, set_var. cbn. rewrite (proj2 (Nat.eqb_neq u v)) by auto. reflexivity. }
    intros j Hj. destruct (at_ok s m u bu lu HC Eu Gu j Hj) as (x & H1 & H2). exists x. rewrite Hat. auto. }
  assert (Hs1 : attempts s1 = k) by exact Hk.
  pose proof (succeed_lt k (length lu) Hb) as Hlt.
  assert (E : (if length lv =? length lu
               then Ok (if bv then Some (repeat (@None V) (length lv)) else None)
               else do _ <- @deallocate V (if bv then Some (repeat None (length lv)) else None);
                    Ok (Some (repeat None (length lu)))) = Ok (Some (built lu 0))).
  { rewrite built_0. destruct (Nat.eqb_spec (length lv) (length lu)) as [El|Hne].
    - destruct bv; [rewrite El; reflexivity|]. rewrite Gv in El by reflexivity. cbn in El. lia.
    - replace (@deallocate V _) with (@Ok unit tt); [reflexivity|].
      destruct bv; [symmetry; apply dealloc_raw|reflexivity]. }
  match goal with |- context[bind (if length lv =? length lu then ?a else ?b) _] =>
    change (if length lv =? length lu then a else b) with
      (if length lv =? length lu
               then Ok (if bv then Some (repeat (@None V) (length lv)) else None)
               else do _ <- @deallocate V (if bv then Some (repeat (@None V) (length lv)) else None);
                    Ok (Some (repeat None (length lu)))) end.
  rewrite E. cbn [bind].
  rewrite (construct_ok lu _ (length lu) 0) by (auto; lia). cbn [bind]. rewrite Hs1, Hb. cbn [Nat.add].
  eexists. split; [reflexivity|].
  unfold get_arr. cbn -[Nat.eqb]. rewrite Nat.eqb_refl. cbn [bind size_ data_].
  rewrite (destruct_built lu _ Hlt). reflexivity.
Qed.
End P.
