(** The Function model refines its exact specification; the exact one refines the ideal one. *)
From Verif Require Import Base FunctionModel FunctionSpec.

Lemma round_up_ge x a : (0 < a)%N -> (x <= round_up x a)%N.
Proof.
  intros Ha. unfold round_up. pose proof (N.div_mod (x + a - 1) a ltac:(lia)) as H.
  pose proof (N.mod_lt (x + a - 1) a ltac:(lia)). nia.
Qed.

Section Proofs.
Variables C A R : Type.
Variable call : C -> A -> R.
Variable csize calign : C -> N.
Variable p dalign : N.
Variable debug : bool.
Hypothesis p_pos : (0 < p)%N.
Hypothesis dalign_pos : (0 < dalign)%N.
Notation fobj := (fobj C).
Notation state := (state C).
Notation vals := (vals C).
Notation fval := (fval C).
Notation step := (step call csize calign p dalign debug).
Notation run := (run call csize calign p dalign debug).
Notation fits := (fun c => (holder_size csize calign p c <=? buffer_size p dalign)%N).
Notation exact := (@exact C A R call fits).
Notation exacts := (@exacts C A R call fits).
Notation blocks := (@blocks C fits).

Lemma function_never_inline : (function_holder_size p dalign <=? buffer_size p dalign)%N = false.
Proof.
  apply N.leb_gt. unfold function_holder_size, function_size.
  pose proof (round_up_ge p (N.max p dalign) ltac:(lia)).
  pose proof (round_up_ge (round_up p dalign + buffer_size p dalign) (N.max p dalign) ltac:(lia)).
  pose proof (round_up_ge p dalign ltac:(lia)).
  pose proof (round_up_ge (round_up p (N.max p dalign) +
    round_up (round_up p dalign + buffer_size p dalign) (N.max p dalign)) (N.max p dalign) ltac:(lia)).
  lia.
Qed.

(** * Trees *)
Fixpoint ids (f : fobj) : list nat :=
  match f with FNull => [] | FInline i _ => [i] | FHeap h i _ => [h; i] | FHeapF h g => h :: ids g end.
Definition idsv (o : option fobj) : list nat := match o with Some f => ids f | None => [] end.
Fixpoint rep (f : fobj) (x : fval) : Prop :=
  match f, x with
  | FNull, (0, None) => True
  | FInline _ c, (0, Some c') => c = c' /\ fits c = true
  | FHeap _ _ c, (0, Some c') => c = c' /\ fits c = false
  | FHeapF _ g, (S n, y) => rep g (n, y)
  | _, _ => False
  end.

Lemma in_use (s : state) i : In i (live s) -> use s i = Ok tt.
Proof. intros H. unfold use. destruct (in_dec Nat.eq_dec i (live s)); tauto. Qed.
Lemma not_in_use (s : state) i : ~ In i (live s) -> use s i = Fault UseAfterFree.
Proof. intros H. unfold use. destruct (in_dec Nat.eq_dec i (live s)); tauto. Qed.
Lemma kill_ok (s : state) i : In i (live s) ->
  exists s', kill s i = Ok s' /\ vars s' = vars s /\ next s' = next s /\ news s' = news s
    /\ (forall j, In j (live s') <-> In j (live s) /\ j <> i).
Proof.
  intros H. unfold kill. destruct (in_dec Nat.eq_dec i (live s)); [|tauto].
  eexists. split; [reflexivity|]. cbn. repeat (split; [reflexivity|]). intros j. split.
  - intros Hj. apply in_remove in Hj. exact Hj.
  - intros [? ?]. now apply in_in_remove.
Qed.

Lemma destroy_ok f : forall s : state, NoDup (ids f) -> incl (ids f) (live s) ->
  exists s', destroy s f = Ok s' /\ vars s' = vars s /\ next s' = next s /\ news s' = news s
    /\ (forall j, In j (live s') <-> In j (live s) /\ ~ In j (ids f)).
Proof.
  induction f as [|i c|h i c|h g IH]; intros s Hn Hl; cbn [destroy ids] in *.
  - exists s. cbn. intuition.
  - rewrite in_use by (apply Hl; now left). cbn [bind].
    destruct (kill_ok s i) as (s' & E & H1 & H2 & H3 & H4); [apply Hl; now left|].
    exists s'. repeat (split; [assumption|]). intros j. rewrite H4. cbn. intuition.
  - inversion Hn as [|? ? Hni Hn']; subst. rewrite in_use by (apply Hl; now left). cbn [bind].
    destruct (kill_ok s i) as (s1 & E1 & H1 & H2 & H3 & H4); [apply Hl; now right; left|]. rewrite E1. cbn [bind].
    destruct (kill_ok s1 h) as (s2 & E2 & H5 & H6 & H7 & H8).
    { apply H4. split; [apply Hl; now left|]. intros ->. apply Hni. now left. }
    exists s2. split; [exact E2|]. repeat (split; [congruence|]).
    intros j. rewrite H8, H4. cbn. intuition.
  - inversion Hn as [|? ? Hni Hn']; subst. rewrite in_use by (apply Hl; now left). cbn [bind].
    destruct (IH s Hn') as (s1 & E1 & H1 & H2 & H3 & H4); [intros j Hj; apply Hl; now right|]. rewrite E1. cbn [bind].
    destruct (kill_ok s1 h) as (s2 & E2 & H5 & H6 & H7 & H8).
    { apply H4. split; [apply Hl; now left|]. exact Hni. }
    exists s2. split; [exact E2|]. repeat (split; [congruence|]).
    intros j. rewrite H8, H4. cbn. intuition.
Qed.

(** [s'] is [s] plus the freshly created tree [f], made with [k] operator new calls. *)
Definition created (s s' : state) (f : fobj) (k : nat) : Prop :=
  vars s' = vars s /\ next s <= next s' /\ news s' = news s + k /\ NoDup (ids f)
  /\ (forall i, In i (ids f) -> next s <= i /\ i < next s')
  /\ (forall i, In i (live s') <-> In i (live s) \/ In i (ids f)).

Lemma created_inline s c : created s (fst (make s)) (FInline (next s) c) 0.
Proof.
  unfold created. cbn. split; [reflexivity|]. split; [lia|]. split; [lia|]. split.
  { repeat constructor. now intros []. }
  split; [intros i [<-|[]]; lia|]. intros i. tauto.
Qed.
Lemma created_heap s c : created s (fst (make (fst (new_ s)))) (FHeap (next s) (S (next s)) c) 1.
Proof.
  unfold created. cbn. split; [reflexivity|]. split; [lia|]. split; [lia|]. split.
  { repeat constructor; cbn; try tauto. intros [?|[]]. lia. }
  split; [intros i [<-|[<-|[]]]; lia|]. intros i. tauto.
Qed.

Lemma assign_const_ok f : forall (s : state) x, rep f x -> incl (ids f) (live s) ->
  exists s' f', assign_const s f = Ok (s', f') /\ rep f' x /\ created s s' f' (blocks x).
Proof.
  induction f as [|i c|h i c|h g IH]; intros s [[|n] [y|]] Hr Hl; cbn [rep] in Hr; try tauto; cbn [assign_const ids] in *.
  - exists s, FNull. split; auto. split; [exact I|]. unfold created, FunctionSpec.blocks. cbn.
    split; [reflexivity|]. split; [lia|]. split; [lia|]. split; [constructor|]. split; intros; tauto.
  - destruct Hr as [<- Hf]. rewrite in_use by (apply Hl; now left). cbn [bind make].
    eexists _, _. split; [reflexivity|]. split; [now split|].
    unfold FunctionSpec.blocks. cbn [fst snd]. rewrite Hf. apply created_inline.
  - destruct Hr as [<- Hf]. rewrite !in_use by (apply Hl; cbn; tauto). cbn [bind make new_].
    eexists _, _. split; [reflexivity|]. split; [now split|].
    unfold FunctionSpec.blocks. cbn [fst snd]. rewrite Hf. apply created_heap.
  - rewrite in_use by (apply Hl; now left). cbn [bind new_].
    destruct (IH (fst (new_ s)) (n, Some y) Hr) as (s' & f' & E & Hr' & H1 & H2 & H3 & H4 & H5 & H6).
    { intros j Hj. cbn. right. apply Hl. now right. }
    cbn [new_ fst] in E. rewrite E. cbn [bind]. eexists _, _. split; [reflexivity|]. split; [exact Hr'|].
    cbn in H1, H2, H3, H5, H6. unfold created. cbn [ids]. split; [exact H1|]. split; [lia|].
    split; [unfold FunctionSpec.blocks in *; cbn [fst snd] in *; lia|]. split.
    { constructor; auto. intros Hin. apply H5 in Hin. lia. }
    split; [intros i [<-|Hi]; [lia|]; apply H5 in Hi; lia|]. intros i. rewrite H6. cbn. tauto.
  - rewrite in_use by (apply Hl; now left). cbn [bind new_].
    destruct (IH (fst (new_ s)) (n, None) Hr) as (s' & f' & E & Hr' & H1 & H2 & H3 & H4 & H5 & H6).
    { intros j Hj. cbn. right. apply Hl. now right. }
    cbn [new_ fst] in E. rewrite E. cbn [bind]. eexists _, _. split; [reflexivity|]. split; [exact Hr'|].
    cbn in H1, H2, H3, H5, H6. unfold created. cbn [ids]. split; [exact H1|]. split; [lia|].
    split; [unfold FunctionSpec.blocks in *; cbn [fst snd] in *; lia|]. split.
    { constructor; auto. intros Hin. apply H5 in Hin. lia. }
    split; [intros i [<-|Hi]; [lia|]; apply H5 in Hi; lia|]. intros i. rewrite H6. cbn. tauto.
Qed.

Lemma assign_lvalue_ok f (s : state) n y : rep f (n, y) -> incl (ids f) (live s) ->
  exists s' f', assign_lvalue p dalign s f = Ok (s', f') /\ rep f' (S n, y) /\ created s s' f' (blocks (S n, y)).
Proof.
  intros Hr Hl. unfold assign_lvalue. rewrite function_never_inline. cbn [new_].
  destruct (assign_const_ok f (fst (new_ s)) (n, y) Hr) as (s' & f' & E & Hr' & H1 & H2 & H3 & H4 & H5 & H6).
  { intros j Hj. cbn. right. now apply Hl. }
  cbn [new_ fst] in E. rewrite E. cbn [bind]. eexists _, _. split; [reflexivity|]. split; [exact Hr'|].
  cbn in H1, H2, H3, H5, H6. unfold created. cbn [ids]. split; [exact H1|]. split; [lia|].
  split; [unfold FunctionSpec.blocks in *; cbn [fst snd] in *; lia|]. split.
  { constructor; auto. intros Hin. apply H5 in Hin. lia. }
  split; [intros i [<-|Hi]; [lia|]; apply H5 in Hi; lia|]. intros i. rewrite H6. cbn. tauto.
Qed.

Lemma assign_callable_ok (s : state) c :
  exists s' f', assign_callable csize calign p dalign s c = (s', f') /\ rep f' (0, Some c)
    /\ created s s' f' (blocks (0, Some c)).
Proof.
  unfold assign_callable, FunctionSpec.blocks. cbn [fst snd].
  destruct (holder_size csize calign p c <=? buffer_size p dalign)%N eqn:E; cbn [make new_];
    eexists _, _; (split; [reflexivity|]); (split; [now split|]).
  - apply created_inline.
  - apply created_heap.
Qed.

Lemma invoke_ok f : forall (s : state) a n c, rep f (n, Some c) -> incl (ids f) (live s) ->
  invoke call debug s f a = Ok (call c a).
Proof.
  induction f as [|i c|h i c|h g IH]; intros s a [|n] c' Hr Hl; cbn [rep] in Hr; try tauto; cbn [invoke ids] in *.
  - destruct Hr as [-> _]. rewrite in_use by (apply Hl; now left). reflexivity.
  - destruct Hr as [-> _]. rewrite !in_use by (apply Hl; cbn; tauto). reflexivity.
  - rewrite in_use by (apply Hl; now left). cbn [bind]. eapply IH; eauto. intros j Hj. apply Hl. now right.
Qed.
Lemma invoke_empty f : forall (s : state) a n, rep f (n, None) -> incl (ids f) (live s) ->
  invoke call debug s f a = Fault (if debug then AssertFail else NullDeref).
Proof.
  induction f as [|i c|h i c|h g IH]; intros s a [|n] Hr Hl; cbn [rep] in Hr; try tauto; cbn [invoke ids] in *.
  - destruct debug; reflexivity.
  - rewrite in_use by (apply Hl; now left). cbn [bind]. eapply IH; eauto. intros j Hj. apply Hl. now right.
Qed.

(** * The invariant *)
Definition wr {B} (m : var -> B) (v : var) (x : B) : var -> B := fun u => if u =? v then x else m u.
Lemma wr_eq {B} (m : var -> B) v x : wr m v x v = x.
Proof. unfold wr. now rewrite Nat.eqb_refl. Qed.
Lemma wr_ne {B} (m : var -> B) v x u : u <> v -> wr m v x u = m u.
Proof. intros H. unfold wr. now apply Nat.eqb_neq in H as ->. Qed.

Record inv (vf : var -> option fobj) (lv : list nat) (nx : nat) (m : vals) : Prop := {
  i_agree : forall v, match vf v, m v with None, None => True | Some f, Some x => rep f x | _, _ => False end;
  i_own : forall v i, In i (idsv (vf v)) -> In i lv;
  i_nd : forall v, NoDup (idsv (vf v));
  i_disj : forall v u i, In i (idsv (vf v)) -> In i (idsv (vf u)) -> v = u;
  i_fresh : forall i, In i lv -> i < nx;
  i_cover : forall i, In i lv -> exists v, In i (idsv (vf v))
}.

Lemma inv_ext vf vf' lv lv' nx m m' :
  (forall v, vf v = vf' v) -> (forall i, In i lv <-> In i lv') -> (forall v, m v = m' v) ->
  inv vf lv nx m -> inv vf' lv' nx m'.
Proof.
  intros Hv Hl Hm [a b c d e f]. split.
  - intros v. specialize (a v). now rewrite Hv, Hm in a.
  - intros v i Hi. rewrite <- Hv in Hi. apply Hl. eauto.
  - intros v. rewrite <- Hv. auto.
  - intros v u i H1 H2. rewrite <- Hv in H1, H2. eauto.
  - intros i Hi. apply e, Hl, Hi.
  - intros i Hi. apply Hl in Hi. destruct (f i Hi) as [v Hi']. exists v. now rewrite <- Hv.
Qed.

Lemma inv_del vf lv lv' nx m v :
  inv vf lv nx m -> (forall i, In i lv' <-> In i lv /\ ~ In i (idsv (vf v))) ->
  inv (wr vf v None) lv' nx (put m v None).
Proof.
  intros [a b c d e f] Hl. split.
  - intros u. unfold wr, put. destruct (u =? v); auto. apply a.
  - intros u i Hi. apply Hl. unfold wr in Hi. destruct (Nat.eqb_spec u v) as [->|Hne]; [destruct Hi|].
    split; eauto.
  - intros u. unfold wr. destruct (u =? v); [constructor|apply c].
  - intros u u' i Hu Hu'. unfold wr in *. destruct (Nat.eqb_spec u v) as [->|]; [destruct Hu|].
    destruct (Nat.eqb_spec u' v) as [->|]; [destruct Hu'|]. eauto.
  - intros i Hi. apply Hl in Hi. apply e. tauto.
  - intros i Hi. apply Hl in Hi as [Hi Hn]. destruct (f i Hi) as [u Hu]. exists u.
    unfold wr. destruct (Nat.eqb_spec u v) as [->|]; tauto.
Qed.

Lemma inv_add vf lv lv' nx nx' m v g x :
  inv vf lv nx m -> m v = None -> rep g x -> NoDup (ids g) -> nx <= nx' ->
  (forall i, In i (ids g) -> nx <= i /\ i < nx') ->
  (forall i, In i lv' <-> In i lv \/ In i (ids g)) ->
  inv (wr vf v (Some g)) lv' nx' (put m v (Some x)).
Proof.
  intros [a b c d e f] Hm Hr Hn Hle Hrg Hl. split.
  - intros u. unfold wr, put. destruct (u =? v); auto. apply a.
  - intros u i Hi. apply Hl. unfold wr in Hi. destruct (Nat.eqb_spec u v) as [->|Hne]; [right; exact Hi|left; eauto].
  - intros u. unfold wr. destruct (u =? v); auto.
  - intros u u' i Hu Hu'. unfold wr in *.
    destruct (Nat.eqb_spec u v) as [->|]; destruct (Nat.eqb_spec u' v) as [->|]; auto.
    + cbn in Hu. apply Hrg in Hu. apply b, e in Hu'. lia.
    + cbn in Hu'. apply Hrg in Hu'. apply b, e in Hu. lia.
    + eauto.
  - intros i Hi. apply Hl in Hi as [Hi|Hi]; [apply e in Hi; lia|apply Hrg in Hi; lia].
  - intros i Hi. apply Hl in Hi as [Hi|Hi].
    + destruct (f i Hi) as [u Hu]. exists u. unfold wr. destruct (Nat.eqb_spec u v) as [->|]; auto.
      exfalso. specialize (a v). rewrite Hm in a. destruct (vf v); [tauto|]. destruct Hu.
    + exists v. rewrite wr_eq. exact Hi.
Qed.

Lemma inv_steal vf lv nx m v u g x :
  inv vf lv nx m -> m v = None -> vf u = Some g -> m u = Some x -> v <> u ->
  inv (wr (wr vf v (Some g)) u (Some FNull)) lv nx (put (put m v (Some x)) u (Some (0, None))).
Proof.
  intros [a b c d e f] Hm Hu Hmu Hne.
  assert (Hvn : vf v = None). { specialize (a v). rewrite Hm in a. destruct (vf v); tauto. }
  assert (Hids : forall z, idsv (wr (wr vf v (Some g)) u (Some FNull) z)
                 = if z =? u then [] else if z =? v then ids g else idsv (vf z)).
  { intros z. unfold wr. destruct (z =? u); auto. destruct (z =? v); auto. }
  split; intros; rewrite ?Hids in *.
  - unfold wr, put. destruct (Nat.eqb_spec v0 u) as [->|]; cbn; auto.
    destruct (Nat.eqb_spec v0 v) as [->|]; [|apply a]. specialize (a u). now rewrite Hu, Hmu in a.
  - destruct (v0 =? u); [destruct H|]. destruct (v0 =? v); [|eauto]. apply (b u). now rewrite Hu.
  - destruct (v0 =? u); [constructor|]. destruct (v0 =? v); [|auto]. specialize (c u). now rewrite Hu in c.
  - assert (Hg : forall j, In j (ids g) -> In j (idsv (vf u))) by (now rewrite Hu).
    destruct (Nat.eqb_spec v0 u); [destruct H|]. destruct (Nat.eqb_spec u0 u); [destruct H0|].
    destruct (Nat.eqb_spec v0 v), (Nat.eqb_spec u0 v); subst; auto.
    + exfalso. apply Hg in H. apply n0. symmetry. eauto.
    + exfalso. apply Hg in H0. apply n. eauto.
    + eauto.
  - auto.
  - destruct (f i H) as [z Hz]. destruct (Nat.eq_dec z u) as [->|Hzu].
    + exists v. rewrite Hids. apply Nat.eqb_neq in Hne as ->. rewrite Nat.eqb_refl. now rewrite Hu in Hz.
    + exists z. rewrite Hids. apply Nat.eqb_neq in Hzu as ->. destruct (Nat.eqb_spec z v) as [->|]; auto.
      rewrite Hvn in Hz. destruct Hz.
Qed.

Notation Inv s m := (inv (vars s) (live s) (next s) m).

Lemma get_some (s : state) m v x : Inv s m -> m v = Some x ->
  exists f, vars s v = Some f /\ get_fn s v = Ok f /\ rep f x /\ incl (ids f) (live s) /\ NoDup (ids f).
Proof.
  intros [a b c d e f] Hm. pose proof (a v) as H. rewrite Hm in H. unfold get_fn.
  destruct (vars s v) as [g|] eqn:E; [|tauto]. exists g. split; auto. split; auto. split; auto. split.
  - intros j Hj. apply (b v). now rewrite E.
  - specialize (c v). now rewrite E in c.
Qed.
Lemma get_none (s : state) m v : Inv s m -> m v = None -> vars s v = None /\ fresh_var s v = Ok tt.
Proof.
  intros [a _ _ _ _ _] Hm. specialize (a v). rewrite Hm in a. unfold fresh_var. destruct (vars s v); tauto.
Qed.

(** Placing a freshly created tree into a variable that holds none (or a dead one). *)
Lemma place_new (s s' : state) lv m v f x k :
  inv (wr (vars s) v None) lv (next s) (put m v None) -> (forall i, In i lv <-> In i (live s)) ->
  rep f x -> created s s' f k ->
  Inv (set_var s' v (Some f)) (put m v (Some x)).
Proof.
  intros Hi Hlv Hr (H1 & H2 & H3 & H4 & H5 & H6). cbn [vars live next set_var].
  eapply inv_ext; [| | |eapply (inv_add _ _ (live s') _ (next s') _ v f x Hi)]; auto.
  - intros u. unfold wr. rewrite H1. destruct (u =? v); auto.
  - intros i. tauto.
  - intros u. unfold put. destruct (u =? v); auto.
  - unfold put. now rewrite Nat.eqb_refl.
  - intros i. rewrite H6, Hlv. tauto.
Qed.

Lemma place_fresh (s s' : state) m v f x k :
  Inv s m -> m v = None -> rep f x -> created s s' f k -> Inv (set_var s' v (Some f)) (put m v (Some x)).
Proof.
  intros Hi Hm Hr Hc. eapply (place_new s s' (live s)); eauto; [|tauto].
  destruct (get_none s m v Hi Hm) as [Hv _].
  eapply inv_ext; [| | |exact Hi]; intros; try tauto.
  - unfold wr. destruct (Nat.eqb_spec v0 v); congruence.
  - unfold put. destruct (Nat.eqb_spec v0 v); congruence.
Qed.

Lemma news_step (s s' : state) f k v : created s s' f k -> news (set_var s' v (Some f)) = news s + k.
Proof. now intros (_ & _ & H & _). Qed.

(** destroy() then the variable is dead. *)
Lemma destroy_var (s : state) m v x : Inv s m -> m v = Some x ->
  exists f s1, get_fn s v = Ok f /\ destroy s f = Ok s1 /\ vars s1 = vars s /\ next s1 = next s /\ news s1 = news s
    /\ (forall j, In j (live s1) <-> In j (live s) /\ ~ In j (ids f))
    /\ inv (wr (vars s1) v None) (live s1) (next s1) (put m v None).
Proof.
  intros Hi Hm. destruct (get_some s m v x Hi Hm) as (f & Hv & Hg & Hr & Hl & Hn).
  destruct (destroy_ok f s Hn Hl) as (s1 & E & H1 & H2 & H3 & H4).
  exists f, s1. repeat (split; [assumption|]). rewrite H1, H2. eapply inv_del; eauto.
  intros i. rewrite Hv. cbn. apply H4.
Qed.

(** Another variable's tree is untouched by that. *)
Lemma other_var (s s1 : state) m v u f y :
  Inv s m -> vars s v = Some f -> vars s1 = vars s -> v <> u ->
  (forall j, In j (live s1) <-> In j (live s) /\ ~ In j (ids f)) -> m u = Some y ->
  exists g, get_fn s1 u = Ok g /\ vars s1 u = Some g /\ rep g y /\ incl (ids g) (live s1).
Proof.
  intros Hi Hv H1 Hne Hl Hm. destruct (get_some s m u y Hi Hm) as (g & Hu & Hg & Hr & Hin & Hn).
  exists g. unfold get_fn in *. rewrite H1. split; auto. split; auto. split; auto.
  intros j Hj. apply Hl. split; auto. intros Hjf. apply Hne.
  apply (i_disj _ _ _ _ Hi v u j); [now rewrite Hv|now rewrite Hu].
Qed.

(** move(): v receives u's value. *)
Lemma move_ok (s : state) vf m v u x lv :
  (forall z, z <> v -> vars s z = vf z) -> vf v = None -> (forall i, In i (live s) <-> In i lv) ->
  inv vf lv (next s) m -> m v = None -> m u = Some x -> v <> u ->
  exists s' f, move s u = Ok (s', f) /\ news s' = news s
    /\ Inv (set_var s' v (Some f)) (put (put m v (Some x)) u (Some (0, None))).
Proof.
  intros Hvf Hvn Hlv Hi Hmv Hmu Hne.
  pose proof (i_agree _ _ _ _ Hi u) as Ha. rewrite Hmu in Ha.
  assert (Hu : vars s u = vf u) by (apply Hvf; auto).
  destruct (vf u) as [g|] eqn:Eu; [|tauto].
  assert (Hin : incl (ids g) (live s)).
  { intros j Hj. apply Hlv. apply (i_own _ _ _ _ Hi u). now rewrite Eu. }
  assert (Hnd : NoDup (ids g)) by (pose proof (i_nd _ _ _ _ Hi u) as H; now rewrite Eu in H).
  assert (steal : Inv (set_var (set_var s u (Some FNull)) v (Some g)) (put (put m v (Some x)) u (Some (0, None)))).
  { cbn [vars live next set_var]. eapply inv_ext; [| | |exact (inv_steal _ _ _ _ v u g x Hi Hmv Eu Hmu Hne)]; auto.
    - intros z. unfold wr. destruct (Nat.eqb_spec z u), (Nat.eqb_spec z v); subst; auto; try congruence.
      symmetry. now apply Hvf.
    - intros i. now rewrite Hlv. }
  unfold move, get_fn. rewrite Hu. cbn [bind].
  destruct g as [|i c|h i c|h g].
  - exists s, FNull. split; auto. split; auto. eapply inv_ext; [| | |exact steal]; cbn; intros; try tauto.
    destruct (Nat.eqb_spec v0 v); auto. destruct (Nat.eqb_spec v0 u); subst; auto.
  - rewrite in_use by (apply Hin; now left). cbn [bind make].
    set (s0 := State (vars s) (next s :: live s) (S (next s)) (news s)).
    destruct (destroy_ok (FInline i c) s0 Hnd) as (s1 & E & H1 & H2 & H3 & H4).
    { intros j Hj. right. now apply Hin. }
    rewrite E. cbn [bind]. eexists _, _. split; [reflexivity|]. split; [exact H3|].
    assert (Hi_fresh : i < next s). { apply (i_fresh _ _ _ _ Hi), Hlv, Hin. now left. }
    pose proof (inv_del vf lv (remove Nat.eq_dec i lv) (next s) m u Hi) as Hd.
    assert (Hd' : inv (wr vf u None) (remove Nat.eq_dec i lv) (next s) (put m u None)).
    { apply Hd. intros j. rewrite Eu. cbn. split.
      - intros Hj. apply in_remove in Hj as [? ?]. intuition.
      - intros [? Hj]. apply in_in_remove; auto. }
    clear Hd. destruct x as [[|n] [c'|]]; cbn in Ha; try tauto. destruct Ha as [-> Hf].
    pose proof (inv_add _ _ (live s1) _ (next s1) _ v (FInline (next s) c') (0, Some c') Hd') as Hadd.
    assert (Hadd' : inv (wr (wr vf u None) v (Some (FInline (next s) c'))) (live s1) (next s1)
                      (put (put m u None) v (Some (0, Some c')))).
    { apply Hadd.
      - unfold put. destruct (v =? u); auto.
      - now split.
      - repeat constructor. intros [].
      - rewrite H2. cbn. lia.
      - intros j [<-|[]]. rewrite H2. cbn. lia.
      - intros j. rewrite H4. cbn. split.
        + intros [[<-|Hj] Hn]; [tauto|]. left. apply in_in_remove; [intuition|]. now apply Hlv.
        + intros [Hj|[<-|[]]].
          * apply in_remove in Hj as [Hj ?]. split; [right; now apply Hlv|intuition].
          * split; auto. intros [?|[]]. lia. }
    clear Hadd. pose proof (inv_add _ _ (live s1) _ (next s1) _ u FNull (0, None) Hadd') as Hend.
    cbn [vars live next set_var]. eapply inv_ext; [| | |apply Hend]; auto.
    + intros z. unfold wr. rewrite H1. cbn. destruct (Nat.eqb_spec z u), (Nat.eqb_spec z v); subst; auto; try congruence.
      symmetry. now apply Hvf.
    + intros z. tauto.
    + intros z. unfold put. destruct (Nat.eqb_spec z u), (Nat.eqb_spec z v); subst; auto; congruence.
    + unfold put. apply not_eq_sym in Hne. apply Nat.eqb_neq in Hne as ->. now rewrite Nat.eqb_refl.
    + exact I.
    + constructor.
    + intros j [].
    + intros j. cbn. tauto.
  - eexists _, _. split; [reflexivity|]. split; [reflexivity|]. exact steal.
  - eexists _, _. split; [reflexivity|]. split; [reflexivity|]. exact steal.
Qed.

Theorem step_ok (s : state) m o m' r k :
  Inv s m -> exact m o = Some (m', r, k) ->
  exists s', step s o = Ok (s', r) /\ Inv s' m' /\ news s' = news s + k.
Proof.
  intros Hi Hm. destruct o; cbn [FunctionSpec.exact] in Hm; cbn [FunctionModel.step].
  - (* New *)
    destruct (m v) eqn:Hv; [discriminate|]. injection Hm as <- <- <-.
    destruct (get_none _ _ _ Hi Hv) as [_ ->]. cbn [bind]. eexists. split; [reflexivity|]. split; [|cbn; lia].
    apply (place_fresh s s m v FNull (0, None) 0 Hi Hv); [exact I|].
    unfold created. cbn. split; [reflexivity|]. split; [lia|]. split; [lia|]. split; [constructor|].
    split; [intros i []|]. intros i. tauto.
  - (* FromCallable *)
    destruct (m v) eqn:Hv; [discriminate|]. injection Hm as <- <- <-.
    destruct (get_none _ _ _ Hi Hv) as [_ ->]. cbn [bind].
    destruct (assign_callable_ok s c) as (s' & f & -> & Hr & Hc). eexists. split; [reflexivity|].
    split; [eapply place_fresh; eauto|eapply news_step; eauto].
  - (* CopyConst *)
    destruct (m v) eqn:Hv; [discriminate|]. destruct (m u) as [x|] eqn:Hu; [|discriminate].
    injection Hm as <- <- <-.
    destruct (get_none _ _ _ Hi Hv) as [_ ->]. cbn [bind].
    destruct (get_some _ _ _ _ Hi Hu) as (g & Eg & -> & Hr & Hin & Hn). cbn [bind].
    destruct (assign_const_ok g s x Hr Hin) as (s' & f & -> & Hr' & Hc). cbn [bind].
    eexists. split; [reflexivity|]. split; [eapply place_fresh; eauto|eapply news_step; eauto].
  - (* CopyLvalue *)
    destruct (m v) eqn:Hv; [discriminate|]. destruct (m u) as [[n x]|] eqn:Hu; [|discriminate].
    injection Hm as <- <- <-.
    destruct (get_none _ _ _ Hi Hv) as [_ ->]. cbn [bind].
    destruct (get_some _ _ _ _ Hi Hu) as (g & Eg & -> & Hr & Hin & Hn). cbn [bind].
    destruct (assign_lvalue_ok g s n x Hr Hin) as (s' & f & -> & Hr' & Hc). cbn [bind].
    eexists. split; [reflexivity|]. split; [eapply place_fresh; eauto|eapply news_step; eauto].
  - (* MoveCtor *)
    destruct (m v) eqn:Hv; [discriminate|]. destruct (m u) as [x|] eqn:Hu; [|discriminate].
    injection Hm as <- <- <-. assert (Hne : v <> u) by congruence.
    destruct (get_none _ _ _ Hi Hv) as [Ev ->]. cbn [bind].
    destruct (move_ok s (vars s) m v u x (live s)) as (s' & f & -> & Hn & Hinv); auto; [intros; tauto|].
    cbn [bind]. eexists. split; [reflexivity|]. split; [exact Hinv|cbn; lia].
  - (* AssignNull *)
    destruct (m v) as [xv|] eqn:Hv; [|discriminate]. injection Hm as <- <- <-.
    destruct (destroy_var _ _ _ _ Hi Hv) as (f & s1 & -> & Hd & H1 & H2 & H3 & H4 & Hinv). cbn [bind].
    rewrite Hd. cbn [bind]. eexists. split; [reflexivity|]. split; [|cbn; lia].
    eapply (place_new s1 s1 (live s1)); eauto; [tauto|exact I|].
    unfold created. cbn. split; [reflexivity|]. split; [lia|].
    split; [instantiate (1 := 0); lia|]. split; [constructor|]. split; [intros i []|]. intros i. tauto.
  - (* AssignCallable *)
    destruct (m v) as [xv|] eqn:Hv; [|discriminate]. injection Hm as <- <- <-.
    destruct (destroy_var _ _ _ _ Hi Hv) as (f & s1 & -> & Hd & H1 & H2 & H3 & H4 & Hinv). cbn [bind].
    rewrite Hd. cbn [bind].
    destruct (assign_callable_ok s1 c) as (s' & f' & -> & Hr & Hc). eexists. split; [reflexivity|].
    split; [|rewrite (news_step _ _ _ _ v Hc); lia].
    eapply (place_new s1 s' (live s1)); eauto. tauto.
  - (* AssignConst *)
    destruct (m v) as [xv|] eqn:Hv; [|discriminate]. destruct (m u) as [x|] eqn:Hu; [|discriminate].
    destruct (Nat.eqb_spec v u) as [|Hne]; [discriminate|]. injection Hm as <- <- <-.
    destruct (destroy_var _ _ _ _ Hi Hv) as (f & s1 & Hg & Hd & H1 & H2 & H3 & H4 & Hinv).
    assert (Ev : vars s v = Some f) by (unfold get_fn in Hg; destruct (vars s v); congruence).
    rewrite Hg. cbn [bind]. rewrite Hd. cbn [bind].
    destruct (other_var s s1 m v u f x Hi Ev H1 Hne H4 Hu) as (g & -> & Eg & Hr & Hin). cbn [bind].
    destruct (assign_const_ok g s1 x Hr Hin) as (s' & f' & -> & Hr' & Hc). cbn [bind].
    eexists. split; [reflexivity|]. split; [|rewrite (news_step _ _ _ _ v Hc); lia].
    eapply (place_new s1 s' (live s1)); eauto. tauto.
  - (* AssignLvalue *)
    destruct (m v) as [xv|] eqn:Hv; [|discriminate]. destruct (m u) as [[n x]|] eqn:Hu; [|discriminate].
    destruct (Nat.eqb_spec v u) as [|Hne]; [discriminate|]. injection Hm as <- <- <-.
    destruct (destroy_var _ _ _ _ Hi Hv) as (f & s1 & Hg & Hd & H1 & H2 & H3 & H4 & Hinv).
    assert (Ev : vars s v = Some f) by (unfold get_fn in Hg; destruct (vars s v); congruence).
    rewrite Hg. cbn [bind]. rewrite Hd. cbn [bind].
    destruct (other_var s s1 m v u f _ Hi Ev H1 Hne H4 Hu) as (g & -> & Eg & Hr & Hin). cbn [bind].
    destruct (assign_lvalue_ok g s1 n x Hr Hin) as (s' & f' & -> & Hr' & Hc). cbn [bind].
    eexists. split; [reflexivity|]. split; [|rewrite (news_step _ _ _ _ v Hc); lia].
    eapply (place_new s1 s' (live s1)); eauto. tauto.
  - (* AssignMove *)
    destruct (m v) as [xv|] eqn:Hv; [|discriminate]. destruct (m u) as [x|] eqn:Hu; [|discriminate].
    destruct (Nat.eqb_spec v u) as [|Hne]; [discriminate|]. injection Hm as <- <- <-.
    destruct (destroy_var _ _ _ _ Hi Hv) as (f0 & s1 & Hg & Hd & H1 & H2 & H3 & H4 & Hinv).
    rewrite Hg. cbn [bind]. rewrite Hd. cbn [bind].
    destruct (move_ok s1 (wr (vars s1) v None) (put m v None) v u x (live s1))
      as (s' & f & -> & Hn & Hinv'); auto.
    { intros z Hz. now rewrite wr_ne. } { apply wr_eq. } { tauto. }
    { unfold put. now rewrite Nat.eqb_refl. }
    { unfold put. apply not_eq_sym in Hne. apply Nat.eqb_neq in Hne as ->. exact Hu. }
    cbn [bind]. eexists. split; [reflexivity|]. split; [|cbn; lia].
    eapply inv_ext; [| | |exact Hinv']; auto; intros z; try tauto.
    unfold put. destruct (z =? u), (z =? v); auto.
  - (* IsSet *)
    destruct (m v) as [x|] eqn:Hv; [|discriminate].
    destruct (get_some _ _ _ _ Hi Hv) as (f & Ev & -> & Hr & _). cbn [bind].
    exists s. assert (H : Some (m, OBool (R := R) (negb (is_null f)), 0) = Some (m', r, k)).
    { rewrite <- Hm. destruct x as [[|n] [c|]], f; cbn in Hr; try tauto; reflexivity. }
    injection H as <- <- <-. split; [reflexivity|]. split; [exact Hi|lia].
  - (* Invoke *)
    destruct (m v) as [[n [c|]]|] eqn:Hv; try discriminate. injection Hm as <- <- <-.
    destruct (get_some _ _ _ _ Hi Hv) as (f & Ev & -> & Hr & Hin & _). cbn [bind].
    rewrite (invoke_ok f s a n c Hr Hin). cbn [bind]. exists s. split; [reflexivity|]. split; [exact Hi|lia].
  - (* UsingInline *)
    destruct (m v) as [x|] eqn:Hv; [|discriminate].
    destruct (get_some _ _ _ _ Hi Hv) as (f & Ev & -> & Hr & _). cbn [bind].
    exists s. assert (H : Some (m, OBool (R := R) (is_inline f), 0) = Some (m', r, k)).
    { rewrite <- Hm. destruct x as [[|n] [c|]], f; cbn in Hr; try tauto; try reflexivity;
        destruct Hr as [<- E]; cbn; now rewrite E. }
    injection H as <- <- <-. split; [reflexivity|]. split; [exact Hi|lia].
  - (* Destroy *)
    destruct (m v) as [xv|] eqn:Hv; [|discriminate]. injection Hm as <- <- <-.
    destruct (destroy_var _ _ _ _ Hi Hv) as (f & s1 & -> & Hd & H1 & H2 & H3 & H4 & Hinv). cbn [bind].
    rewrite Hd. cbn [bind]. eexists. split; [reflexivity|]. split; [exact Hinv|cbn; lia].
Qed.

Lemma inv_init : Inv (@empty_state C) no_vars.
Proof. split; cbn; intros; try tauto. constructor. Qed.

Theorem run_ok l : forall (s : state) m m' rs k,
  Inv s m -> exacts m l = Some (m', rs, k) ->
  exists s', run s l = Ok (s', rs) /\ Inv s' m' /\ news s' = news s + k.
Proof.
  induction l as [|o l IH]; intros s m m' rs k Hi Hm; cbn [FunctionSpec.exacts FunctionModel.run] in *.
  - injection Hm as <- <- <-. exists s. split; auto.
  - destruct (exact m o) as [[[m1 r] k1]|] eqn:E; [|discriminate].
    destruct (exacts m1 l) as [[[m2 rs'] k2]|] eqn:E2; [|discriminate]. injection Hm as <- <- <-.
    destruct (step_ok _ _ _ _ _ _ Hi E) as (s1 & -> & Hi1 & Hk1). cbn [bind].
    destruct (IH _ _ _ _ _ Hi1 E2) as (s2 & -> & Hi2 & Hk2). cbn [bind].
    exists s2. split; auto. split; auto. lia.
Qed.

Lemma inv_final (s : state) m : Inv s m -> (forall v, m v = None) -> live s = [].
Proof.
  intros Hi Hm. destruct (live s) as [|i l]; auto.
  destruct (i_cover _ _ _ _ Hi i) as [v Hv]; [now left|].
  pose proof (i_agree _ _ _ _ Hi v) as Ha. rewrite Hm in Ha. destruct (vars s v); [tauto|destruct Hv].
Qed.

(** * Ideal from exact *)
Definition proj (m : vals) (im : ivals C) : Prop :=
  forall v, match m v, im v with
            | None, None => True
            | Some (n, x), Some y => x = y /\ (x = None -> n = 0)
            | _, _ => False
            end.

Lemma proj_put m im v n x :
  proj m im -> (x = None -> n = 0) -> proj (put m v (Some (n, x))) (iput im v (Some x)).
Proof. intros H Hx u. unfold put, iput. destruct (u =? v); [now split|apply H]. Qed.
Lemma proj_del m im v : proj m im -> proj (put m v None) (iput im v None).
Proof. intros H u. unfold put, iput. destruct (u =? v); [auto|apply H]. Qed.

Lemma ideal_exact m im o im' r : proj m im -> ideal call im o = Some (im', r) ->
  exists m' k, exact m o = Some (m', r, k) /\ proj m' im'.
Proof.
  intros Hp Hd. destruct o; cbn [ideal] in Hd; cbn [FunctionSpec.exact]; try discriminate;
    pose proof (Hp v) as Hv; try (pose proof (Hp u) as Hu);
    destruct (im v) as [y|]; destruct (m v) as [[n x]|]; try discriminate; try tauto;
    try (destruct (im u) as [y'|]; destruct (m u) as [[n' x']|]; try discriminate; try tauto).
  - injection Hd as <- <-. eexists _, _. split; [reflexivity|]. now apply proj_put.
  - injection Hd as <- <-. eexists _, _. split; [reflexivity|]. now apply proj_put.
  - injection Hd as <- <-. destruct Hu as [<- Hx]. eexists _, _. split; [reflexivity|]. now apply proj_put.
  - destruct y' as [c|]; [|discriminate]. injection Hd as <- <-. destruct Hu as [-> Hx].
    eexists _, _. split; [reflexivity|]. now apply proj_put.
  - injection Hd as <- <-. destruct Hu as [<- Hx]. eexists _, _. split; [reflexivity|].
    apply proj_put; auto. now apply proj_put.
  - injection Hd as <- <-. eexists _, _. split; [reflexivity|]. now apply proj_put.
  - injection Hd as <- <-. eexists _, _. split; [reflexivity|]. now apply proj_put.
  - destruct (v =? u); [discriminate|]. injection Hd as <- <-. destruct Hu as [<- Hx].
    eexists _, _. split; [reflexivity|]. now apply proj_put.
  - destruct y' as [c|]; [|discriminate]. destruct (v =? u); [discriminate|].
    injection Hd as <- <-. destruct Hu as [-> Hx]. eexists _, _. split; [reflexivity|]. now apply proj_put.
  - destruct (v =? u); [discriminate|]. injection Hd as <- <-. destruct Hu as [<- Hx].
    eexists _, _. split; [reflexivity|]. apply proj_put; auto. now apply proj_put.
  - destruct Hv as [<- Hx]. destruct x as [c|]; injection Hd as <- <-.
    + exists m, 0. split; auto. destruct n; reflexivity.
    + rewrite (Hx eq_refl). exists m, 0. split; auto.
  - destruct y as [c|]; [|discriminate]. injection Hd as <- <-. destruct Hv as [-> _].
    exists m, 0. split; auto.
  - injection Hd as <- <-. eexists _, _. split; [reflexivity|]. now apply proj_del.
Qed.

Lemma ideals_exacts l : forall m im im' rs, proj m im -> ideals call im l = Some (im', rs) ->
  exists m' k, exacts m l = Some (m', rs, k) /\ proj m' im'.
Proof.
  induction l as [|o l IH]; intros m im im' rs Hp Hd; cbn [ideals FunctionSpec.exacts] in *.
  - injection Hd as <- <-. exists m, 0. auto.
  - destruct (ideal call im o) as [[im1 r]|] eqn:E; [|discriminate].
    destruct (ideals call im1 l) as [[im2 rs']|] eqn:E2; [|discriminate]. injection Hd as <- <-.
    destruct (ideal_exact m im o im1 r Hp E) as (m1 & k1 & -> & Hp1).
    destruct (IH m1 im1 im2 rs' Hp1 E2) as (m2 & k2 & -> & Hp2). eexists _, _. split; [reflexivity|auto].
Qed.

Lemma run_app l q : forall s,
  run s (l ++ q) = do (s, r) <- run s l; do (s, r') <- run s q; Ok (s, r ++ r').
Proof.
  induction l as [|o l IH]; intros s; cbn [app FunctionModel.run bind].
  - destruct (run s q) as [[]| |]; reflexivity.
  - destruct (step s o) as [[s1 r]| |]; cbn [bind]; try reflexivity.
    rewrite IH. destruct (run s1 l) as [[s2 r2]| |]; cbn [bind]; try reflexivity.
    destruct (run s2 q) as [[]| |]; reflexivity.
Qed.

(** * Self-assignment *)
Lemma self_assign_nonempty (s : state) m v x :
  Inv s m -> m v = Some x -> x <> (0, None) ->
  step s (AssignConst v v) = Fault UseAfterFree /\ step s (AssignLvalue v v) = Fault UseAfterFree.
Proof.
  intros Hi Hv Hx. destruct (destroy_var _ _ _ _ Hi Hv) as (f & s1 & Hg & Hd & H1 & H2 & H3 & H4 & Hinv).
  destruct (get_some _ _ _ _ Hi Hv) as (f' & Ev & Hg' & Hr & Hin & Hn).
  assert (f' = f) by congruence. subst f'.
  assert (Hh : forall i, In i (ids f) -> ~ In i (live s1)) by (intros i Hi1; rewrite H4; tauto).
  assert (Hc : forall s2 : state, live s2 = live s1 \/ live s2 = next s1 :: live s1 ->
    assign_const s2 f = Fault UseAfterFree).
  { intros s2 Hl2.
    assert (Hh2 : forall i, In i (ids f) -> ~ In i (live s2)).
    { intros i Hi2. destruct Hl2 as [-> | ->]; auto. intros [E|E]; [|now apply (Hh i)].
      apply Hin in Hi2. apply (i_fresh _ _ _ _ Hi) in Hi2. lia. }
    destruct f as [|i c|h i c|h g]; cbn [assign_const ids] in *.
    - destruct x as [[|n] [c|]]; cbn in Hr; try tauto. 
    - rewrite not_in_use by (apply Hh2; now left). reflexivity.
    - rewrite not_in_use by (apply Hh2; now left). reflexivity.
    - rewrite not_in_use by (apply Hh2; now left). reflexivity. }
  cbn [FunctionModel.step]. rewrite Hg. cbn [bind]. rewrite Hd. cbn [bind].
  replace (get_fn s1 v) with (@Ok (FunctionModel.fobj C) f) by (unfold get_fn; now rewrite H1, Ev). cbn [bind].
  split.
  - rewrite Hc; auto.
  - unfold assign_lvalue. rewrite function_never_inline. cbn [new_]. rewrite Hc; auto.
Qed.

Lemma self_move (s : state) m v n x :
  Inv s m -> m v = Some (n, x) ->
  match n, x with
  | 0, Some c =>
      if fits c then step s (AssignMove v v) = Fault UseAfterFree
      else exists s', step s (AssignMove v v) = Ok (s', ONone) /\ Inv s' (put m v (Some (0, None)))
  | _, _ => exists s', step s (AssignMove v v) = Ok (s', ONone) /\ Inv s' (put m v (Some (0, None)))
  end.
Proof.
  intros Hi Hv. destruct (destroy_var _ _ _ _ Hi Hv) as (f & s1 & Hg & Hd & H1 & H2 & H3 & H4 & Hinv).
  destruct (get_some _ _ _ _ Hi Hv) as (f' & Ev & Hg' & Hr & Hin & Hn).
  assert (f' = f) by congruence. subst f'.
  cbn [FunctionModel.step]. rewrite Hg. cbn [bind]. rewrite Hd. cbn [bind].
  unfold move. replace (get_fn s1 v) with (@Ok (FunctionModel.fobj C) f) by (unfold get_fn; now rewrite H1, Ev).
  cbn [bind]. rewrite Nat.eqb_refl.
  assert (Hend : Inv (set_var (set_var s1 v (Some FNull)) v (Some FNull)) (put m v (Some (0, None)))).
  { pose proof (place_new s1 s1 (live s1) m v FNull (0, None) 0 Hinv) as H.
    eapply inv_ext; [| | |apply H]; auto; try tauto; cbn.
    - intros u. destruct (u =? v); auto.
    - tauto.
    - unfold created. split; [reflexivity|]. split; [lia|]. split; [lia|].
      split; [constructor|]. split; [intros i []|]. cbn. tauto. }
  destruct f as [|i c|h i c|h g]; destruct n as [|n], x as [c'|]; cbn [rep] in Hr; try tauto; cbn [bind].
  - eexists. split; [reflexivity|]. eapply inv_ext; [| | |exact Hend]; auto; try tauto. intros u. cbn.
    destruct (u =? v); auto.
  - destruct Hr as [<- ->]. rewrite not_in_use; [reflexivity|]. rewrite H4. cbn. tauto.
  - destruct Hr as [<- ->]. eexists. split; [reflexivity|]. exact Hend.
  - eexists. split; [reflexivity|]. exact Hend.
  - eexists. split; [reflexivity|]. exact Hend.
Qed.
End Proofs.

(** * Layout *)
Lemma round_up_mult k a : (0 < a)%N -> round_up (k * a) a = (k * a)%N.
Proof.
  intros Ha. unfold round_up. replace (k * a + a - 1)%N with (a - 1 + k * a)%N by lia.
  rewrite N.div_add by lia. rewrite N.div_small by lia. lia.
Qed.
Lemma round_up_le_mult x k a : (0 < a)%N -> (round_up x a <= k * a <-> x <= k * a)%N.
Proof.
  intros Ha. pose proof (round_up_ge x a Ha). split; [lia|]. intros Hx. unfold round_up.
  apply N.mul_le_mono_r. apply N.lt_succ_r. apply N.div_lt_upper_bound; nia.
Qed.
Lemma round_up_div x a : (0 < a)%N -> N.divide a (round_up x a).
Proof. intros. unfold round_up. apply N.divide_factor_r. Qed.
