(** Property theorems C86 and C87: the vector and deque helpers.  A vector with the values [xs] is [map Live xs]: in
    particular no theorem leaves a moved-from element behind. *)
From Verif Require Import Base VecModel VecProofs.
Local Open Scope nat_scope.
Local Open Scope list_scope.
Notation holding xs := (map Live xs).

(** * C86 *)
Theorem C86_move_extend : forall T max fuel (m : memory T) dest src ds ss,
  dest <> src -> m dest = holding ds -> m src = holding ss ->
  length ds + length ss <= max -> length ss < fuel ->
  exists m', MoveExtend max fuel m dest src = Ok m'
    /\ m' dest = holding (ds ++ ss) /\ m' src = [] /\ forall q, q <> dest -> q <> src -> m' q = m q.
Proof.
  intros T max fuel m dest src ds ss Hne Hd Hs Hm Hf. unfold MoveExtend.
  assert (En : src =? dest = false) by (apply Nat.eqb_neq; auto).
  assert (En' : dest =? src = false) by (apply Nat.eqb_neq; auto).
  destruct (m dest) as [|c r] eqn:E.
  - destruct ds; [|discriminate]. eexists. split; [reflexivity|]. unfold put. rewrite Nat.eqb_refl, En', Nat.eqb_refl. rewrite Hs.
    repeat split. intros q Q1 Q2. apply Nat.eqb_neq in Q1, Q2. now rewrite Q1, Q2.
  - destruct (extend_ok T max (m src) [] fuel m dest src Hne eq_refl) as (m' & A & B & C).
    + rewrite Hs, map_length. exact Hf.
    + rewrite E, Hd, Hs, !map_length. exact Hm.
    + cbn [length] in A. rewrite A. cbn [bind]. eexists. split; [reflexivity|]. unfold put. rewrite En', Nat.eqb_refl.
      split; [rewrite B, E, Hd, Hs; now rewrite map_app|]. split; [reflexivity|].
      intros q Q1 Q2. rewrite <- (C q Q1 Q2). apply Nat.eqb_neq in Q2. now rewrite Q2.
Qed.
Print Assumptions C86_move_extend.

Theorem C86_pop_back : forall T (xs : list T) x, PopBack (holding (xs ++ [x])) = Ok (Live x, holding xs).
Proof.
  intros T xs x. rewrite map_app. cbn [map]. unfold PopBack, v_back.
  destruct (map Live xs ++ [Live x]) eqn:E; [destruct (map Live xs); discriminate|]. rewrite <- E. cbn [bind].
  rewrite out_mid by (rewrite app_length; cbn; lia). cbn [bind]. unfold v_pop_back.
  destruct (map Live xs ++ [Moved]) eqn:E2; [destruct (map Live xs); discriminate|]. rewrite <- E2, removelast_last. reflexivity.
Qed.
Print Assumptions C86_pop_back.
Theorem C86_pop_front : forall T (xs : list T) x, PopFront (holding (x :: xs)) = Ok (Live x, holding xs).
Proof. reflexivity. Qed.
Print Assumptions C86_pop_front.
Theorem C86_remove_at : forall T (xs ys : list T) x, RemoveAt (holding (xs ++ x :: ys)) (length xs) = Ok (holding (xs ++ ys)).
Proof.
  intros T xs ys x. unfold RemoveAt. rewrite !map_app. cbn [map]. rewrite <- (map_length Live xs). apply erase_ok.
Qed.
Print Assumptions C86_remove_at.
(** Insertion before position [length xs], at the end included; with or without reallocation; also when the item is an
    element of the vector itself. *)
Theorem C86_insert_at : forall T room (xs ys : list T) x,
  InsertAt room (holding (xs ++ ys)) (length xs) (Outside x) = Ok (holding (xs ++ x :: ys))
  /\ InsertAt_move room (holding (xs ++ ys)) (length xs) (Live x) = Ok (holding (xs ++ x :: ys), Moved)
  /\ EmplaceAt room (holding (xs ++ ys)) (length xs) x = Ok (holding (xs ++ x :: ys)).
Proof.
  intros T room xs ys x. unfold InsertAt, InsertAt_move, EmplaceAt. cbn [bind]. rewrite !map_app. cbn [map].
  rewrite <- (map_length Live xs). rewrite insert_ok. auto.
Qed.
Print Assumptions C86_insert_at.
Theorem C86_insert_own_element : forall T room (xs ys : list T) k x,
  nth_error (xs ++ ys) k = Some x ->
  InsertAt room (holding (xs ++ ys)) (length xs) (Element k) = Ok (holding (xs ++ x :: ys)).
Proof.
  intros T room xs ys k x Hk. unfold InsertAt.
  rewrite (slot_get_ok _ _ (Live x)) by (now apply map_nth_error). cbn [bind].
  rewrite !map_app. cbn [map]. rewrite <- (map_length Live xs). apply insert_ok.
Qed.
Print Assumptions C86_insert_own_element.
(** EraseIf: exactly the elements for which the predicate is false remain, in order; the predicate is called once on
    every element, in order, and never on a moved-from one. *)
Theorem C86_erase_if : forall T (pred : T -> bool) xs,
  EraseIf pred (holding xs) = Ok (holding (filter (fun x => negb (pred x)) xs), xs).
Proof. intros. apply erase_if_ok. Qed.
Print Assumptions C86_erase_if.
(** Outside their domain (documented for the std members): positions beyond the end, empty containers. *)
Theorem C86_domain : forall T room (v : list (cell T)) at_ it,
  (PopBack v = Fault OutOfBounds <-> v = []) /\ (PopFront v = Fault OutOfBounds <-> v = [])
  /\ (length v <= at_ -> RemoveAt v at_ = Fault OutOfBounds)
  /\ (length v < at_ -> InsertAt room v at_ (Outside it) = Fault OutOfBounds).
Proof.
  intros T room v at_ it. split; [|split; [|split]].
  - split; [|now intros ->]. destruct v as [|c v] using rev_ind; [reflexivity|].
    unfold PopBack, v_back. destruct (v ++ [c]) eqn:E; [destruct v; discriminate|]. rewrite <- E. cbn [bind].
    rewrite out_mid by (rewrite app_length; cbn; lia). cbn [bind]. unfold v_pop_back. destruct (v ++ [Moved]) eqn:E2; [destruct v; discriminate|].
    discriminate.
  - split; [|now intros ->]. destruct v; [reflexivity|discriminate].
  - intros H. unfold RemoveAt, v_erase. replace (at_ <? length v) with false by (symmetry; apply Nat.ltb_ge; lia). reflexivity.
  - intros H. unfold InsertAt, v_insert. cbn [bind]. replace (length v <? at_) with true by (symmetry; apply Nat.ltb_lt; lia). reflexivity.
Qed.
Print Assumptions C86_domain.
Example C86_nonvacuous :
  EraseIf Nat.even (holding [1; 2; 3; 4; 5; 6; 7]) = Ok (holding [1; 3; 5; 7], [1; 2; 3; 4; 5; 6; 7])
  /\ RemoveAt (holding [1; 2; 3; 4]) 1 = Ok (holding [1; 3; 4])
  /\ InsertAt true (holding [1; 2; 3; 4]) 1 (Element 3) = Ok (holding [1; 4; 2; 3; 4])
  /\ exists m', MoveExtend 10 9 (fun p => if p =? 0 then holding [1; 2] else holding [3; 4]) 0 1 = Ok m'
       /\ m' 0 = holding [1; 2; 3; 4] /\ m' 1 = [].
Proof.
  split; [reflexivity|]. split; [reflexivity|]. split; [reflexivity|]. eexists. split; [vm_compute; reflexivity|]. split; reflexivity.
Qed.

(** * C87 *)
(** Refuted for every non-empty vector: the loop reads src->size() afresh after each element it adds to the same
    vector.  However long it runs ([fuel]) and however much memory there is ([max]) it does not return: it is still
    running, or emplace_back has thrown. *)
Theorem C87_self_extend_refuted : forall T max fuel (m : memory T) p,
  m p <> [] -> length (m p) <= max ->
  MoveExtend max fuel m p p = if fuel <=? max - length (m p) then Diverge else Fault Abort.
Proof.
  intros T max fuel m p Hn Hm. unfold MoveExtend. destruct (m p) as [|c v] eqn:E; [easy|].
  rewrite (extend_self T max fuel m p 0) by (rewrite E; cbn [length] in *; lia). rewrite E. now destruct (_ <=? _).
Qed.
Print Assumptions C87_self_extend_refuted.
(** Only the empty vector survives. *)
Theorem C87_empty_partial : forall T max fuel (m : memory T) p, m p = [] ->
  exists m', MoveExtend max fuel m p p = Ok m' /\ m' p = [] /\ forall q, q <> p -> m' q = m q.
Proof.
  intros T max fuel m p H. unfold MoveExtend. rewrite H. eexists. split; [reflexivity|]. unfold put. rewrite Nat.eqb_refl.
  split; [reflexivity|]. intros q Hq. apply Nat.eqb_neq in Hq. now rewrite Hq.
Qed.
Print Assumptions C87_empty_partial.
Example C87_nonvacuous :
  MoveExtend 1000 500 (fun _ => holding [1; 2; 3]) 0 0 = Diverge
  /\ MoveExtend 1000 2000 (fun _ => holding [1; 2; 3]) 0 0 = Fault Abort.
Proof. split; vm_compute; reflexivity. Qed.
