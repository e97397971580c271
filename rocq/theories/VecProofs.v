From Verif Require Import Base VecModel.
Local Open Scope nat_scope.
Local Open Scope list_scope.

Section P.
Variable T : Type.
Notation vec := (list (cell T)).

Lemma get_mid (l1 l2 : vec) x i : i = length l1 -> slot_get (l1 ++ x :: l2) i = Ok x.
Proof. intros ->. apply slot_get_ok. rewrite nth_error_app2, Nat.sub_diag; auto. Qed.
Lemma upd_mid (l1 l2 : vec) x y : upd (l1 ++ x :: l2) (length l1) y = l1 ++ y :: l2.
Proof. induction l1; cbn; congruence. Qed.
Lemma set_mid (l1 l2 : vec) x y i : i = length l1 -> slot_set (l1 ++ x :: l2) i y = Ok (l1 ++ y :: l2).
Proof. intros ->. rewrite slot_set_ok; [now rewrite upd_mid|]. rewrite app_length. cbn. lia. Qed.
Lemma out_mid (l1 l2 : vec) x i : i = length l1 -> move_out (l1 ++ x :: l2) i = Ok (x, l1 ++ Moved :: l2).
Proof. intros H. unfold move_out. rewrite (get_mid _ _ _ _ H). cbn [bind]. rewrite (set_mid _ _ _ _ _ H). reflexivity. Qed.

Lemma assign_left (pre mid post : vec) g x d s : d = length pre -> s = length pre + 1 + length mid ->
  move_assign (pre ++ g :: mid ++ x :: post) d s = Ok (pre ++ x :: mid ++ Moved :: post).
Proof.
  intros -> ->. unfold move_assign. replace (pre ++ g :: mid ++ x :: post) with ((pre ++ g :: mid) ++ x :: post)
    by now rewrite <- app_assoc.
  rewrite out_mid by (rewrite app_length; cbn; lia). cbn [bind]. rewrite <- app_assoc. cbn [app]. now rewrite set_mid.
Qed.
Lemma assign_right (pre post : vec) g x d s : s = length pre -> d = length pre + 1 ->
  move_assign (pre ++ x :: g :: post) d s = Ok (pre ++ Moved :: x :: post).
Proof.
  intros -> ->. unfold move_assign. rewrite out_mid by reflexivity. cbn [bind].
  replace (pre ++ Moved :: g :: post) with ((pre ++ [Moved]) ++ g :: post) by now rewrite <- app_assoc.
  rewrite set_mid by (rewrite app_length; cbn; lia). now rewrite <- app_assoc.
Qed.

Lemma shift_left_all : forall (post pre : vec) g, exists h, shift_left (length post) (pre ++ g :: post) (length pre + 1) = Ok (pre ++ post ++ [h]).
Proof.
  induction post as [|x post IH]; intros pre g; [exists g; reflexivity|]. cbn [length shift_left].
  rewrite (assign_left pre [] post g x) by (cbn; lia). cbn [bind app].
  destruct (IH (pre ++ [x]) Moved) as [h Hh]. exists h.
  rewrite app_length in Hh. cbn [length] in Hh. rewrite <- !app_assoc in Hh. exact Hh.
Qed.
Lemma erase_ok (pre : vec) x post : v_erase (pre ++ x :: post) (length pre) = Ok (pre ++ post).
Proof.
  unfold v_erase. assert (L : length (pre ++ x :: post) = length pre + S (length post)) by (rewrite app_length; reflexivity).
  replace (length pre <? length (pre ++ x :: post)) with true by (symmetry; apply Nat.ltb_lt; lia). cbn [negb].
  replace (length (pre ++ x :: post) - 1 - length pre) with (length post) by lia.
  destruct (shift_left_all post pre x) as [h ->]. cbn [bind]. rewrite app_assoc. unfold v_pop_back.
  destruct ((pre ++ post) ++ [h]) eqn:E; [destruct (pre ++ post); discriminate|]. rewrite <- E. now rewrite removelast_last.
Qed.
Lemma shift_right_all : forall (mid pre post : vec) g, exists h,
  shift_right (length mid) (pre ++ mid ++ g :: post) (length pre + length mid) = Ok (pre ++ h :: mid ++ post).
Proof.
  induction mid as [|x mid IH] using rev_ind; intros pre post g; [exists g; cbn; reflexivity|].
  rewrite app_length. cbn [length]. replace (length mid + 1) with (S (length mid)) by lia. cbn [shift_right].
  replace (length pre + S (length mid) - 1) with (length pre + length mid) by lia.
  replace (pre ++ (mid ++ [x]) ++ g :: post) with ((pre ++ mid) ++ x :: g :: post) by now rewrite <- !app_assoc.
  rewrite assign_right by (rewrite app_length; lia). cbn [bind]. rewrite <- !app_assoc.
  destruct (IH pre (x :: post) Moved) as [h ->]. exists h. now rewrite <- ?app_assoc.
Qed.
Lemma insert_ok room (pre post : vec) x : v_insert room (pre ++ post) (length pre) x = Ok (pre ++ x :: post).
Proof.
  unfold v_insert. assert (L : length (pre ++ post) = length pre + length post) by apply app_length.
  replace (length (pre ++ post) <? length pre) with false by (symmetry; apply Nat.ltb_ge; lia).
  destruct room; cbn [negb].
  - destruct (Nat.eqb_spec (length pre) (length (pre ++ post))) as [E|E].
    + destruct post; [|cbn in L; lia]. now rewrite app_nil_r.
    + destruct post as [|y post] using rev_ind; [cbn in L; lia|]. clear IHpost.
      assert (L2 : length (pre ++ post ++ [y]) = length pre + (length post + 1)) by (rewrite !app_length; reflexivity). rewrite L2.
      rewrite app_assoc. rewrite out_mid by (rewrite app_length; lia). cbn [bind].
      replace (length pre + (length post + 1) - 1 - length pre) with (length post) by lia.
      replace (length pre + (length post + 1) - 1) with (length pre + length post) by lia.
      rewrite <- !app_assoc. cbn [app]. destruct (shift_right_all post pre [y] Moved) as [h Hh]. rewrite Hh. cbn [bind].
      now rewrite set_mid.
  - rewrite firstn_app, firstn_all, Nat.sub_diag, skipn_app, skipn_all, Nat.sub_diag. cbn. now rewrite app_nil_r.
Qed.
Lemma split_at (v : vec) k : k <= length v -> v = firstn k v ++ skipn k v /\ length (firstn k v) = k.
Proof. intros H. split; [symmetry; apply firstn_skipn|]. rewrite firstn_length. lia. Qed.

(** remove_if *)
Variable pred : T -> bool.
Notation kept xs := (filter (fun x => negb (pred x)) xs).
Lemma find_ok : forall post pre,
  (exists a x b, post = a ++ x :: b /\ kept a = a /\ pred x = true
     /\ find_first pred (length post) (map Live (pre ++ post)) (length pre) = Ok (length pre + length a, a ++ [x]))
  \/ (kept post = post /\ find_first pred (length post) (map Live (pre ++ post)) (length pre) = Ok (length pre + length post, post)).
Proof.
  induction post as [|y post IH]; intros pre; [right; cbn; rewrite Nat.add_0_r; auto|].
  cbn [length find_first]. rewrite map_app. cbn [map].
  rewrite get_mid by now rewrite map_length. cbn [bind call_pred].
  destruct (pred y) eqn:Ey.
  - left. exists [], y, post. cbn. rewrite Nat.add_0_r. auto.
  - replace (map Live pre ++ Live y :: map Live post) with (map Live ((pre ++ [y]) ++ post))
      by (rewrite <- app_assoc; now rewrite map_app).
    assert (Lp : length (pre ++ [y]) = length pre + 1) by (rewrite app_length; reflexivity).
    destruct (IH (pre ++ [y])) as [(a & x & b & -> & Ka & Px & E)|[K E]]; rewrite Lp in E; rewrite E; cbn [bind].
    + left. exists (y :: a), x, b. cbn. rewrite Ey, Ka. cbn. repeat split; auto. f_equal. f_equal. lia.
    + right. cbn. rewrite Ey, K. cbn. split; auto. f_equal. f_equal. lia.
Qed.
(** The compaction: [pre] kept, then a gap (the removed or moved-from cells), then the elements still to see. *)
Lemma compact_ok : forall post (pre gap : vec), gap <> [] ->
  exists rest, compact pred (length post) (pre ++ gap ++ map Live post) (length pre + length gap) (length pre)
    = Ok (length pre + length (kept post), pre ++ map Live (kept post) ++ rest, post).
Proof.
  induction post as [|y post IH]; intros pre gap Hg.
  - exists gap. cbn. rewrite app_nil_r, Nat.add_0_r. reflexivity.
  - cbn [length compact map]. rewrite app_assoc. rewrite get_mid by (rewrite app_length; lia). cbn [bind call_pred filter].
    destruct (pred y) eqn:Ey; cbn [negb].
    + rewrite <- app_assoc. replace (gap ++ Live y :: map Live post) with ((gap ++ [Live y]) ++ map Live post) by now rewrite <- app_assoc.
      destruct (IH pre (gap ++ [Live y])) as [rest E]; [now destruct gap|]. rewrite app_length in E. cbn [length] in E.
      rewrite <- Nat.add_assoc. rewrite E. cbn [bind]. exists rest. reflexivity.
    + rewrite <- app_assoc. destruct gap as [|g gap]; [easy|]. cbn [app].
      rewrite (assign_left pre gap (map Live post) g (Live y)) by (cbn [length]; lia). cbn [bind].
      destruct (IH (pre ++ [Live y]) (gap ++ [Moved])) as [rest E]; [now destruct gap|].
      rewrite !app_length in E. cbn [length] in *. rewrite <- !app_assoc in E. cbn [app] in E.
      replace (length pre + S (length gap) + 1) with (length pre + 1 + (length gap + 1)) by lia. rewrite E. cbn [bind].
      exists rest. cbn [length map app]. f_equal. f_equal. f_equal. lia.
Qed.
Lemma erase_if_ok xs : EraseIf pred (map Live xs) = Ok (map Live (kept xs), xs).
Proof.
  unfold EraseIf, remove_if. rewrite map_length. change 0 with (length (@nil T)) at 1. change xs with ([] ++ xs) at 2.
  destruct (find_ok xs []) as [(a & x & b & -> & Ka & Px & E)|[K E]]; rewrite E; cbn [bind length Nat.add app].
  - assert (L : length (a ++ x :: b) = length a + S (length b)) by (rewrite app_length; reflexivity).
    replace (length a =? length (a ++ x :: b)) with false by (symmetry; apply Nat.eqb_neq; lia).
    replace (length (a ++ x :: b) - length a - 1) with (length b) by lia. rewrite map_app. cbn [map].
    destruct (compact_ok b (map Live a) [Live x] ltac:(discriminate)) as [rest C]. rewrite map_length in C. cbn [length app] in C.
    rewrite C. cbn [bind]. rewrite filter_app, Ka. cbn [filter]. rewrite Px. cbn [negb]. f_equal. f_equal.
    + rewrite firstn_app. rewrite map_length. replace (length a + length (kept b) - length a) with (length (kept b)) by lia.
      rewrite firstn_all2 by (rewrite map_length; lia). rewrite firstn_app, map_length, Nat.sub_diag.
      rewrite firstn_all2 by (rewrite map_length; lia). cbn [firstn]. now rewrite app_nil_r, <- map_app.
    + now rewrite <- app_assoc.
  - rewrite Nat.eqb_refl. cbn [bind]. rewrite K. rewrite firstn_all2 by (rewrite map_length; lia). reflexivity.
Qed.

(** MoveExtend *)
Variable max : nat.
Lemma extend_ok : forall (post pre : vec) fuel m dest src, dest <> src -> m src = pre ++ post ->
  length post < fuel -> length (m dest) + length post <= max ->
  exists m', extend_loop max fuel m dest src (length pre) = Ok m' /\ m' dest = m dest ++ post
    /\ (forall q, q <> dest -> q <> src -> m' q = m q).
Proof.
  induction post as [|x post IH]; intros pre fuel m dest src Hne Hs Hf Hm; (destruct fuel as [|fuel]; [cbn in Hf; lia|]); cbn [extend_loop].
  - rewrite Hs, app_nil_r. rewrite Nat.ltb_irrefl. cbn [negb]. exists m. rewrite app_nil_r. auto.
  - rewrite Hs. replace (length pre <? length (pre ++ x :: post)) with true
      by (symmetry; apply Nat.ltb_lt; rewrite app_length; cbn; lia). cbn [negb].
    cbn [length] in *. replace (max <=? length (m dest)) with false by (symmetry; apply Nat.leb_gt; lia).
    rewrite out_mid by reflexivity. cbn [bind].
    set (m1 := put m src (pre ++ Moved :: post)).
    assert (E1 : m1 dest = m dest) by (unfold m1, put; apply Nat.eqb_neq in Hne; now rewrite Hne).
    destruct (IH (pre ++ [Moved]) fuel (put m1 dest (m1 dest ++ [x])) dest src Hne) as (m' & A & B & C).
    + unfold put at 1. replace (src =? dest) with false by (symmetry; apply Nat.eqb_neq; auto).
      unfold m1, put. rewrite Nat.eqb_refl. now rewrite <- app_assoc.
    + lia.
    + unfold put. rewrite Nat.eqb_refl, E1, app_length. cbn. lia.
    + rewrite app_length in A. cbn [length] in A. exists m'. split; [exact A|]. split.
      * rewrite B. unfold put at 1. rewrite Nat.eqb_refl, E1, <- app_assoc. reflexivity.
      * intros q Q1 Q2. rewrite C by assumption. unfold m1, put.
        replace (q =? dest) with false by (symmetry; now apply Nat.eqb_neq).
        now replace (q =? src) with false by (symmetry; now apply Nat.eqb_neq).
Qed.
(** dest == src: every iteration adds an element, so the end is never reached. *)
Lemma extend_self : forall fuel (m : memory T) p i, i < length (m p) -> length (m p) <= max ->
  extend_loop max fuel m p p i = if fuel <=? max - length (m p) then Diverge else Fault Abort.
Proof.
  induction fuel as [|fuel IH]; intros m p i Hi Hm; [reflexivity|]. cbn [extend_loop].
  replace (i <? length (m p)) with true by (symmetry; now apply Nat.ltb_lt). cbn [negb].
  destruct (Nat.leb_spec max (length (m p))) as [Hle|Hgt].
  - replace (S fuel <=? max - length (m p)) with false by (symmetry; apply Nat.leb_gt; lia). reflexivity.
  - destruct (nth_error (m p) i) as [c|] eqn:Ec; [|apply nth_error_None in Ec; lia].
    unfold move_out. rewrite (slot_get_ok _ _ _ Ec), (slot_set_ok _ _ _ Hi). cbn [bind].
    set (m1 := put m p (upd (m p) i Moved)). set (m2 := put m1 p (m1 p ++ [c])).
    assert (E2 : length (m2 p) = S (length (m p))).
    { unfold m2, m1, put. rewrite Nat.eqb_refl, app_length, upd_length. cbn. lia. }
    rewrite IH by (rewrite E2; lia). rewrite E2.
    destruct (Nat.leb_spec fuel (max - S (length (m p)))), (Nat.leb_spec (S fuel) (max - length (m p))); auto; lia.
Qed.
End P.
