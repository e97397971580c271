(** Property theorems C61-C65: am-function.h. *)
From Verif Require Import Base FunctionModel FunctionSpec FunctionProofs.

Section Props.
Variables C A R : Type.
Variable call : C -> A -> R.
Variable csize calign : C -> N.
Variable p dalign : N.
Variable debug : bool.
Notation run := (run call csize calign p dalign debug).
(** FunctionHolder<C> fits the inline buffer. *)
Notation fits := (fun c => (holder_size csize calign p c <=? buffer_size p dalign)%N).

(** * C61 *)
(** Any program over distinct Functions (never assigning one to itself, never copying an empty one through a
    non-const lvalue - C63, C64), for callables of any size: no fault, and every call runs the callable that
    optional-value semantics says is stored. *)
Theorem C61_function_calls : forall (l : list (op C A)) m rs,
  (0 < p)%N -> (0 < dalign)%N ->
  ideals call no_ivars l = Some (m, rs) -> exists s, run empty_state l = Ok (s, rs).
Proof.
  intros l m rs Hp Hd H.
  destruct (ideals_exacts C A R call csize calign p dalign l no_vars no_ivars m rs) as (m' & k & He & _); auto.
  { intros v. exact I. }
  destruct (run_ok C A R call csize calign p dalign debug Hp Hd l empty_state no_vars m' rs k
    (inv_init C csize calign p dalign) He)
    as (s & Hr & _). eauto.
Qed.

(** Calling an empty Function (however deep the emptiness is wrapped) is caught in debug builds and a null
    dereference otherwise. *)
Theorem C61_function_empty_call : forall (l : list (op C A)) m rs k v n a,
  (0 < p)%N -> (0 < dalign)%N ->
  exacts call fits no_vars l = Some (m, rs, k) -> m v = Some (n, None) ->
  run empty_state (l ++ [Invoke v a]) = Fault (if debug then AssertFail else NullDeref).
Proof.
  intros l m rs k v n a Hp Hd He Hv.
  destruct (run_ok C A R call csize calign p dalign debug Hp Hd l empty_state no_vars m rs k
    (inv_init C csize calign p dalign) He) as (s & Hr & Hi & _).
  rewrite run_app, Hr. cbn [bind FunctionModel.run step].
  destruct (get_some C csize calign p dalign s m v _ Hi Hv) as (f & _ & -> & Hrep & Hin & _). cbn [bind].
  erewrite invoke_empty by eauto. reflexivity.
Qed.

(** * C62 *)
(** For every program without self-assignment, including lvalue copies of empty Functions: no object is used
    after destruction or destroyed twice (no fault); usingInlineStorage() reports exactly whether the stored
    holder fits the buffer (a Function copied from a non-const lvalue is wrapped in a heap holder); the number
    of operator new calls is exactly the specification's count; and once all variables are gone, every callable
    object and every heap block has been destroyed. *)
Theorem C62_function_lifetimes : forall (l : list (op C A)) m rs k,
  (0 < p)%N -> (0 < dalign)%N ->
  exacts call fits no_vars l = Some (m, rs, k) ->
  exists s, run empty_state l = Ok (s, rs) /\ news s = k /\ ((forall v, m v = None) -> live s = []).
Proof.
  intros l m rs k Hp Hd He.
  destruct (run_ok C A R call csize calign p dalign debug Hp Hd l empty_state no_vars m rs k
    (inv_init C csize calign p dalign) He) as (s & Hr & Hi & Hn).
  exists s. split; [exact Hr|]. split; [exact Hn|]. intros Hm.
  eapply inv_final; eauto.
Qed.

(** Whatever is placed in the buffer is suitably aligned there (pointer size and alignments powers of two, double
    aligned to one or two words). *)
Theorem C62_function_inline_aligned : forall c j k,
  p = (2 ^ j)%N -> calign c = (2 ^ k)%N -> dalign = p \/ dalign = (2 * p)%N -> (0 < csize c)%N ->
  (holder_size csize calign p c <= buffer_size p dalign)%N -> N.divide (calign c) dalign.
Proof.
  intros c j k Hp Ha Hd Hs Hf.
  assert (Hp0 : (0 < p)%N) by (rewrite Hp; apply N.neq_0_lt_0, N.pow_nonzero; discriminate).
  assert (Ha0 : (0 < calign c)%N) by (rewrite Ha; apply N.neq_0_lt_0, N.pow_nonzero; discriminate).
  assert (Hdj : exists d, dalign = (2 ^ d)%N).
  { destruct Hd as [-> | ->]; [now exists j|]. exists (j + 1)%N. rewrite Hp, N.pow_add_r. lia. }
  destruct Hdj as [d Hdd].
  destruct (N.le_gt_cases k d) as [Hk|Hk].
  { rewrite Ha, Hdd. exists (2 ^ (d - k))%N. rewrite <- N.pow_add_r. f_equal. lia. }
  exfalso.
  assert (Hal : (2 * dalign <= calign c)%N).
  { rewrite Ha, Hdd. replace (2 * 2 ^ d)%N with (2 ^ (d + 1))%N by (rewrite N.pow_add_r; lia).
    apply N.pow_le_mono_r; lia. }
  assert (Hdp : (p <= dalign)%N) by (destruct Hd; lia).
  unfold holder_size in Hf. rewrite N.max_r in Hf by lia.
  pose proof (round_up_div p (calign c) Ha0) as [q1 E1].
  pose proof (round_up_ge p (calign c) Ha0) as G1.
  pose proof (round_up_div (round_up p (calign c) + csize c) (calign c) Ha0) as [q2 E2].
  pose proof (round_up_ge (round_up p (calign c) + csize c) (calign c) Ha0) as G2.
  assert (Hq1 : (1 <= q1)%N) by (destruct q1; nia).
  assert (Hq2 : (2 <= q2)%N) by nia.
  assert (Hb : (buffer_size p dalign < 4 * dalign)%N).
  { unfold buffer_size. destruct Hd as [-> | ->].
    - rewrite round_up_mult by lia. lia.
    - apply N.le_lt_trans with (2 * (2 * p))%N; [apply round_up_le_mult; lia|lia]. }
  rewrite E2 in Hf. assert (2 * calign c <= q2 * calign c)%N by (apply N.mul_le_mono_r; exact Hq2). lia.
Qed.

(** * C63 *)
(** Full statement (false): in every reachable state, copying an empty Function that is a non-const lvalue gives
    a Function that claims to be set, and whose call faults. *)
Theorem C63_function_copy_empty_refuted : forall (l : list (op C A)) m rs k u v a,
  (0 < p)%N -> (0 < dalign)%N ->
  exacts call fits no_vars l = Some (m, rs, k) -> m u = Some (0, None) -> m v = None ->
  (exists s, run empty_state (l ++ [IsSet u; CopyLvalue v u; IsSet v])
     = Ok (s, rs ++ [OBool false; ONone; OBool true]))
  /\ run empty_state (l ++ [IsSet u; CopyLvalue v u; Invoke v a])
     = Fault (if debug then AssertFail else NullDeref).
Proof.
  intros l m rs k u v a Hp Hd He Hu Hv.
  destruct (run_ok C A R call csize calign p dalign debug Hp Hd l empty_state no_vars m rs k
    (inv_init C csize calign p dalign) He) as (s & Hr & Hi & _).
  assert (Huv : u <> v) by congruence.
  assert (E : exacts call fits m [IsSet u; CopyLvalue v u; IsSet v]
      = Some (put m v (Some (1, None)), [OBool false; ONone; OBool true], 1)).
  { cbn [exacts exact]. rewrite Hu, Hv, Hu. unfold put at 1. rewrite Nat.eqb_refl. reflexivity. }
  assert (E2 : exacts call fits m [IsSet u; CopyLvalue v u]
      = Some (put m v (Some (1, None)), [OBool false; ONone], 1)).
  { cbn [exacts exact]. rewrite Hu, Hv, Hu. reflexivity. }
  split.
  - destruct (run_ok C A R call csize calign p dalign debug Hp Hd _ _ _ _ _ _ Hi E) as (s1 & Hr1 & _).
    exists s1. rewrite run_app, Hr. cbn [bind]. rewrite Hr1. reflexivity.
  - destruct (run_ok C A R call csize calign p dalign debug Hp Hd _ _ _ _ _ _ Hi E2) as (s1 & Hr1 & Hi1 & _).
    change [IsSet u; CopyLvalue v u; Invoke v a] with (([IsSet u; CopyLvalue v u] : list (op C A)) ++ [Invoke v a]).
    rewrite run_app, Hr. cbn [bind]. rewrite run_app, Hr1. cbn [bind FunctionModel.run step].
    destruct (get_some C csize calign p dalign s1 (put m v (Some (1, None))) v (1, None) Hi1) as (f & _ & -> & Hrep & Hin & _).
    { unfold put. now rewrite Nat.eqb_refl. }
    cbn [bind]. erewrite invoke_empty by eauto. reflexivity.
Qed.

(** What holds: copies from const Functions and moves of an empty Function are empty, by construction and by
    assignment, in every reachable state. *)
Theorem C63_function_copy_empty_partial : forall (l : list (op C A)) m rs k u v,
  (0 < p)%N -> (0 < dalign)%N ->
  exacts call fits no_vars l = Some (m, rs, k) -> m u = Some (0, None) -> v <> u ->
  (m v = None -> forall o, o = CopyConst v u \/ o = MoveCtor v u ->
     exists s, run empty_state (l ++ [o; IsSet v; IsSet u]) = Ok (s, rs ++ [ONone; OBool false; OBool false]))
  /\ (m v <> None -> forall o, o = AssignConst v u \/ o = AssignMove v u ->
     exists s, run empty_state (l ++ [o; IsSet v; IsSet u]) = Ok (s, rs ++ [ONone; OBool false; OBool false])).
Proof.
  intros l m rs k u v Hp Hd He Hu Hne.
  destruct (run_ok C A R call csize calign p dalign debug Hp Hd l empty_state no_vars m rs k
    (inv_init C csize calign p dalign) He) as (s & Hr & Hi & _).
  assert (Hun : (u =? v) = false) by (apply Nat.eqb_neq; congruence).
  assert (Hvn : (v =? u) = false) by (now apply Nat.eqb_neq).
  assert (go : forall o, (exists m', exacts call fits m [o; IsSet v; IsSet u]
                 = Some (m', [ONone; OBool false; OBool false], 0)) ->
     exists s, run empty_state (l ++ [o; IsSet v; IsSet u]) = Ok (s, rs ++ [ONone; OBool false; OBool false])).
  { intros o [m' E]. destruct (run_ok C A R call csize calign p dalign debug Hp Hd _ _ _ _ _ _ Hi E) as (s1 & Hr1 & _).
    exists s1. rewrite run_app, Hr. cbn [bind]. rewrite Hr1. reflexivity. }
  split.
  - intros Hv o [-> | ->]; apply go; eexists; cbn [exacts exact]; rewrite Hv, Hu; unfold put, blocks;
      repeat (rewrite ?Nat.eqb_refl, ?Hun, ?Hvn, ?Hu); reflexivity.
  - intros Hv o [-> | ->]; apply go; eexists; cbn [exacts exact]; rewrite Hu;
      (destruct (m v); [|congruence]); unfold put, blocks;
      repeat (rewrite ?Nat.eqb_refl, ?Hun, ?Hvn, ?Hu); reflexivity.
Qed.

(** * C64 *)
(** Full statement (false): in every reachable state, self copy-assignment of any non-empty Function uses a
    destroyed callable; self move-assignment does too when it is stored inline. *)
Theorem C64_function_self_assign_refuted : forall (l : list (op C A)) m rs k v n x,
  (0 < p)%N -> (0 < dalign)%N ->
  exacts call fits no_vars l = Some (m, rs, k) -> m v = Some (n, x) -> (n, x) <> (0, None) ->
  run empty_state (l ++ [AssignConst v v]) = Fault UseAfterFree
  /\ run empty_state (l ++ [AssignLvalue v v]) = Fault UseAfterFree.
Proof.
  intros l m rs k v n x Hp Hd He Hv Hx.
  destruct (run_ok C A R call csize calign p dalign debug Hp Hd l empty_state no_vars m rs k
    (inv_init C csize calign p dalign) He) as (s & Hr & Hi & _).
  destruct (self_assign_nonempty C A R call csize calign p dalign debug Hp Hd s m v (n, x) Hi Hv Hx) as [E1 E2].
  split; rewrite run_app, Hr; cbn [bind FunctionModel.run]; rewrite ?E1, ?E2; reflexivity.
Qed.

Theorem C64_function_self_move_refuted : forall (l : list (op C A)) m rs k v c,
  (0 < p)%N -> (0 < dalign)%N ->
  exacts call fits no_vars l = Some (m, rs, k) -> m v = Some (0, Some c) ->
  (holder_size csize calign p c <= buffer_size p dalign)%N ->
  run empty_state (l ++ [AssignMove v v]) = Fault UseAfterFree.
Proof.
  intros l m rs k v c Hp Hd He Hv Hf.
  destruct (run_ok C A R call csize calign p dalign debug Hp Hd l empty_state no_vars m rs k
    (inv_init C csize calign p dalign) He) as (s & Hr & Hi & _).
  pose proof (self_move C A R call csize calign p dalign debug Hp Hd s m v 0 (Some c) Hi Hv) as E. cbn beta iota in E.
  apply N.leb_le in Hf. rewrite Hf in E. rewrite run_app, Hr. cbn [bind FunctionModel.run]. rewrite E. reflexivity.
Qed.

(** What holds: self move-assignment of a Function not stored inline (heap or empty) empties it without a fault
    and without a leak. *)
Theorem C64_function_self_move_partial : forall (l : list (op C A)) m rs k v n x,
  (0 < p)%N -> (0 < dalign)%N ->
  exacts call fits no_vars l = Some (m, rs, k) -> m v = Some (n, x) ->
  (forall c, n = 0 -> x = Some c -> (buffer_size p dalign < holder_size csize calign p c)%N) ->
  (forall u, u <> v -> m u = None) ->
  exists s, run empty_state (l ++ [AssignMove v v; IsSet v; Destroy v]) = Ok (s, rs ++ [ONone; OBool false; ONone])
    /\ live s = [].
Proof.
  intros l m rs k v n x Hp Hd He Hv Hf Hothers.
  destruct (run_ok C A R call csize calign p dalign debug Hp Hd l empty_state no_vars m rs k
    (inv_init C csize calign p dalign) He) as (s & Hr & Hi & _).
  pose proof (self_move C A R call csize calign p dalign debug Hp Hd s m v n x Hi Hv) as E.
  assert (E' : exists s', step call csize calign p dalign debug s (AssignMove v v) = Ok (s', ONone)
            /\ inv C csize calign p dalign (vars s') (live s') (next s') (put m v (Some (0, None)))).
  { destruct n as [|n], x as [c|]; auto. cbn beta in E. specialize (Hf c eq_refl eq_refl).
    apply N.leb_gt in Hf. now rewrite Hf in E. }
  destruct E' as (s1 & E1 & Hi1).
  assert (E2 : exacts call fits (put m v (Some (0, None))) [IsSet v; Destroy v]
    = Some (put (put m v (Some (0, None))) v None, [OBool false; ONone], 0)).
  { cbn [exacts exact]. unfold put at 1. rewrite Nat.eqb_refl. unfold put at 1. rewrite Nat.eqb_refl. reflexivity. }
  destruct (run_ok C A R call csize calign p dalign debug Hp Hd _ _ _ _ _ _ Hi1 E2) as (s2 & Hr2 & Hi2 & _).
  exists s2. split.
  - change [AssignMove v v; IsSet v; Destroy v] with (([AssignMove v v] : list (op C A)) ++ [IsSet v; Destroy v]).
    rewrite run_app, Hr. cbn [bind]. rewrite run_app. cbn [FunctionModel.run]. rewrite E1. cbn [bind].
    cbn [FunctionModel.run] in Hr2. destruct (step call csize calign p dalign debug s1 (IsSet v)) as [[s3 r3]| |];
      cbn [bind] in *; try discriminate.
    destruct (step call csize calign p dalign debug s3 (Destroy v)) as [[s4 r4]| |];
      cbn [bind] in *; try discriminate. injection Hr2 as -> -> ->. reflexivity.
  - eapply inv_final; [exact Hi2|]. intros u. unfold put. destruct (Nat.eqb_spec u v); auto.
Qed.

(** * C65 *)
(** Exact bound, for callables aligned to at most a word.  When double has word alignment (64-bit targets, i386):
    inline iff the callable is at most two words. *)
Theorem C65_function_inline_bound_partial : forall c q,
  (0 < p)%N -> dalign = p -> p = (q * calign c)%N -> (0 < calign c)%N ->
  ((holder_size csize calign p c <= buffer_size p dalign)%N <-> (csize c <= 2 * p)%N).
Proof.
  intros c q Hp Hd Hq Ha. unfold holder_size, buffer_size. rewrite Hd.
  assert (Hq1 : (1 <= q)%N) by (destruct q; lia).
  rewrite round_up_mult by lia. rewrite N.max_l by nia.
  replace (round_up p (calign c)) with p by (rewrite Hq at 2; rewrite round_up_mult; auto).
  rewrite round_up_le_mult by lia. lia.
Qed.

(** When double needs two words (most 32-bit targets) the buffer is four words and the README's three hold. *)
Theorem C65_function_inline_bound32_partial : forall c q,
  (0 < p)%N -> dalign = (2 * p)%N -> p = (q * calign c)%N -> (0 < calign c)%N ->
  ((holder_size csize calign p c <= buffer_size p dalign)%N <-> (csize c <= 3 * p)%N).
Proof.
  intros c q Hp Hd Hq Ha. unfold holder_size, buffer_size. rewrite Hd.
  assert (Hq1 : (1 <= q)%N) by (destruct q; lia).
  rewrite N.max_l by nia.
  replace (round_up p (calign c)) with p by (rewrite Hq at 2; rewrite round_up_mult; auto).
  replace (round_up (3 * p) (2 * p)) with (4 * p)%N.
  - rewrite round_up_le_mult by lia. lia.
  - unfold round_up. replace (3 * p + 2 * p - 1)%N with (p - 1 + 2 * (2 * p))%N by lia.
    rewrite N.div_add by lia. rewrite N.div_small by lia. lia.
Qed.

(** Full statement (README, false on 64-bit targets): a callable of more than two and up to three words is
    allocated with new, on every construction or assignment. *)
Theorem C65_function_three_words_refuted : forall c q,
  (0 < p)%N -> dalign = p -> p = (q * calign c)%N -> (0 < calign c)%N ->
  (2 * p < csize c <= 3 * p)%N ->
  exists s, run empty_state [FromCallable 0 c; UsingInline 0] = Ok (s, [ONone; OBool false]) /\ news s = 1.
Proof.
  intros c q Hp Hd Hq Ha [Hs _].
  assert (Hf : (holder_size csize calign p c <=? buffer_size p dalign)%N = false).
  { apply N.leb_gt. destruct (N.le_gt_cases (holder_size csize calign p c) (buffer_size p dalign)) as [H|]; auto.
    apply (C65_function_inline_bound_partial c q Hp Hd Hq Ha) in H. lia. }
  destruct (C62_function_lifetimes [FromCallable 0 c; UsingInline 0] (put no_vars 0 (Some (0, Some c)))
    [ONone; OBool false] 1) as (s & H1 & H2 & _); auto.
  { subst dalign. exact Hp. }
  { cbn [exacts exact no_vars]. unfold put at 1. cbn [Nat.eqb]. unfold blocks. cbn [fst snd]. now rewrite Hf. }
  eauto.
Qed.

(** Up to two words (word-aligned): no new at all. *)
Theorem C65_function_two_words_partial : forall c q,
  (0 < p)%N -> dalign = p -> p = (q * calign c)%N -> (0 < calign c)%N -> (csize c <= 2 * p)%N ->
  exists s, run empty_state [FromCallable 0 c; CopyConst 1 0; MoveCtor 2 0; UsingInline 2; AssignCallable 1 c]
    = Ok (s, [ONone; ONone; ONone; OBool true; ONone]) /\ news s = 0.
Proof.
  intros c q Hp Hd Hq Ha Hs.
  assert (Hf : (holder_size csize calign p c <=? buffer_size p dalign)%N = true).
  { apply N.leb_le. now apply (C65_function_inline_bound_partial c q Hp Hd Hq Ha). }
  eassert (E : exacts call fits no_vars [FromCallable 0 c; CopyConst 1 0; MoveCtor 2 0; UsingInline 2; AssignCallable 1 c]
    = Some (_, [ONone; ONone; ONone; OBool true; ONone], 0)).
  { unfold exacts, exact, put, blocks, no_vars. repeat (cbn -[holder_size buffer_size N.leb]; rewrite Hf). reflexivity. }
  destruct (C62_function_lifetimes _ _ _ _ Hp ltac:(subst dalign; exact Hp) E) as (s & H1 & H2 & _).
  eauto.
Qed.
End Props.

Print Assumptions C61_function_calls.
Print Assumptions C61_function_empty_call.
Print Assumptions C62_function_lifetimes.
Print Assumptions C62_function_inline_aligned.
Print Assumptions C63_function_copy_empty_refuted.
Print Assumptions C63_function_copy_empty_partial.
Print Assumptions C64_function_self_assign_refuted.
Print Assumptions C64_function_self_move_refuted.
Print Assumptions C64_function_self_move_partial.
Print Assumptions C65_function_inline_bound_partial.
Print Assumptions C65_function_inline_bound32_partial.
Print Assumptions C65_function_three_words_refuted.
Print Assumptions C65_function_two_words_partial.

(** Non-vacuity: callables are "add k", the size in bytes being 8 for small k and 40 otherwise. *)
Definition add_size (k : nat) : N := if k <? 100 then 8 else 40.
Definition sample : list (op nat nat) :=
  [FromCallable 0 5; FromCallable 1 500; CopyConst 2 0; CopyLvalue 3 1; Invoke 2 1; Invoke 3 1; MoveCtor 4 0;
   IsSet 0; Invoke 4 10; AssignMove 2 1; Invoke 2 2; AssignLvalue 4 3; Invoke 4 3; AssignNull 3; IsSet 3].
Example C61_nonvacuous : exists m,
  ideals Nat.add no_ivars sample
  = Some (m, [ONone; ONone; ONone; ONone; ORet 6; ORet 501; ONone; OBool false; ORet 15; ONone; ORet 502; ONone;
              ORet 503; ONone; OBool false]).
Proof. eexists. reflexivity. Qed.
Example C62_nonvacuous : exists m,
  exacts Nat.add (fun c => (holder_size add_size (fun _ => 8) 8 c <=? buffer_size 8 8)%N) no_vars
    (sample ++ [UsingInline 4; CopyLvalue 5 0; UsingInline 5; Destroy 0; Destroy 1; Destroy 2; Destroy 3; Destroy 4;
                Destroy 5])
  = Some (m, [ONone; ONone; ONone; ONone; ORet 6; ORet 501; ONone; OBool false; ORet 15; ONone; ORet 502; ONone;
              ORet 503; ONone; OBool false; OBool false; ONone; OBool false; ONone; ONone; ONone; ONone; ONone;
              ONone], 7)
  /\ forall v, m v = None.
Proof.
  eexists. split; [reflexivity|]. intros v. do 6 (destruct v as [|v]; [reflexivity|]). reflexivity.
Qed.
Example C62_aligned_nonvacuous :
  (holder_size (fun _ : unit => 8) (fun _ => 8) 4 tt <= buffer_size 4 8)%N /\ (4 = 2 ^ 2)%N /\ (8 = 2 ^ 3)%N.
Proof. repeat split; vm_compute; discriminate. Qed.
Example C63_C64_nonvacuous : exists m,
  exacts Nat.add (fun c => (holder_size add_size (fun _ => 8) 8 c <=? buffer_size 8 8)%N) no_vars
    [New 0; FromCallable 1 5; FromCallable 2 500] = Some (m, [ONone; ONone; ONone], 1)
  /\ m 0 = Some (0, None) /\ m 1 = Some (0, Some 5) /\ m 2 = Some (0, Some 500) /\ m 3 = None.
Proof. eexists. repeat split. Qed.
Example C65_nonvacuous : (8 = 1 * 8)%N /\ (2 * 8 < 24 <= 3 * 8)%N.
Proof. repeat split; try reflexivity. Qed.
