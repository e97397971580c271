(** Property theorems C131: am-fixedarray.h with a T whose constructors may throw. *)
From Verif Require Import Base FixedArrayThrowModel FixedArrayThrowSpec FixedArrayThrowProofs.

(** Full statement (false), first part: nothing leaks.  When the j-th constructor of a new array's elements throws,
    the j elements already built are never destroyed and their storage is never freed. *)
Theorem C131_fixedarray_ctor_leaks_refuted : forall V (dflt : V) (l : list V) j throws,
  j < length l -> (forall i, i < j -> throws i = false) -> throws j = true ->
  exists s, run V dflt throws empty_state [FromVector 0 l] = Ok (s, [Threw])
    /\ (forall v, vars s v = None) /\ map elements (leaked s) = [firstn j l].
Proof.
  intros V dflt l j throws Hj Hf Ht.
  assert (Hs : forall n k, (forall i, i < j - k -> throws (k + i) = false) -> k <= j -> j - k < n ->
                 succeed throws k n = j - k).
  { induction n as [|n IH]; intros k H Hk Hn; [lia|]. cbn [succeed].
    destruct (Nat.eq_dec k j) as [->|Hne]; [rewrite Ht; lia|].
    specialize (H 0 ltac:(lia)) as H0. rewrite Nat.add_0_r in H0. rewrite H0.
    rewrite IH; try lia. intros i Hi. replace (S k + i) with (k + S i) by lia. apply H. lia. }
  assert (E : succeed throws 0 (length l) = j).
  { rewrite Hs; try lia. intros i Hi. apply Hf. lia. }
  destruct (run_ok V dflt throws [FromVector 0 l] empty_state none 0 [] none [Threw] [firstn j l])
    as (s & H & k & HC & _ & _ & HL).
  - apply inv_init.
  - cbn. destruct (all_ok throws 0 (length l)); reflexivity.
  - cbn. unfold ctor, all_ok, tried, all_ok. rewrite E. cbn. rewrite (proj2 (Nat.eqb_neq j (length l))) by lia.
    reflexivity.
  - exists s. split; [exact H|]. split; [intros v; rewrite HC; reflexivity|exact HL].
Qed.
Print Assumptions C131_fixedarray_ctor_leaks_refuted.

(** Full statement (false), second part: a copy assignment that throws leaves an array that can be ended.  After any
    program in which no earlier copy assignment threw, if a constructor throws in one, the array's destructor
    destroys Ts that were never constructed. *)
Theorem C131_fixedarray_assign_refuted : forall V (dflt : V) throws (p : list (op V)) m rs ls v u k s,
  expects dflt throws none 0 p = Some (m, rs, ls) -> no_bad_assign dflt throws none 0 p = true ->
  run V dflt throws empty_state p = Ok (s, rs) -> attempts s = k ->
  expect dflt throws m k (AssignCopy v u) <> None -> bad_assign throws m k (AssignCopy v u) = true ->
  (exists m' rs' ls', expects dflt throws m k [AssignCopy v u; Destroy v] = Some (m', rs', ls'))
  /\ run V dflt throws empty_state (p ++ [AssignCopy v u; Destroy v]) = Fault DoubleFree.
Proof.
  intros V dflt throws p m rs ls v u k s He Hn Hr Hk Hx Hb.
  destruct (run_ok V dflt throws p empty_state none 0 [] m rs ls (inv_init V) Hn He) as (s1 & Hr1 & k1 & Hi).
  rewrite Hr in Hr1. injection Hr1 as <-.
  assert (k1 = k) by (destruct Hi as (_ & _ & E & _); congruence). subst k1.
  split.
  - cbn -[Nat.eqb] in *. destruct (v =? u); [congruence|].
    destruct (m v); try congruence. destruct (m u); try congruence.
    apply negb_true_iff in Hb. rewrite Hb. unfold put. rewrite Nat.eqb_refl. eauto.
  - destruct (bad_assign_faults V dflt throws s m k _ v u Hi Hb Hx) as (s2 & H1 & H2).
    assert (Happ : forall tl q s0 s' rs', run V dflt throws s0 q = Ok (s', rs') ->
              run V dflt throws s0 (q ++ tl)
              = match run V dflt throws s' tl with
                | Ok (s', rs'') => Ok (s', rs' ++ rs'') | Fault f => Fault f | Diverge => Diverge end).
    { intros tl. induction q as [|o q IH]; intros s0 s' rs' Hq.
      - cbn [run] in Hq. injection Hq as <- <-. cbn [app].
        destruct (run V dflt throws s0 tl) as [[? ?]| |]; reflexivity.
      - cbn [app]. cbn [run] in Hq |- *. destruct (step V dflt throws s0 o) as [[s3 r3]| |]; try discriminate.
        cbn [bind] in *. destruct (run V dflt throws s3 q) as [[s4 r4]| |] eqn:E4; try discriminate.
        cbn [bind] in Hq. injection Hq as <- <-. rewrite (IH _ _ _ E4).
        destruct (run V dflt throws s4 tl) as [[? ?]| |]; reflexivity. }
    rewrite (Happ _ _ _ _ _ Hr). cbn [run]. rewrite H1. cbn [bind]. rewrite H2. reflexivity.
Qed.
Print Assumptions C131_fixedarray_assign_refuted.

(** The case exists: an array of three elements assigned from another, the second element's copy throwing. *)
Example C131_assign_case :
  run nat 0 (fun k => k =? 7) empty_state [NewSize 0 3; FromVector 1 [4; 5; 6]; AssignCopy 0 1; Destroy 0]
  = Fault DoubleFree.
Proof. reflexivity. Qed.

(** Everything else is exact: in every program in which no copy assignment throws, whatever other statements throw,
    each statement completes or throws as expected, every observation is the expected one, no element is destroyed
    twice, read or overwritten when it should not be - and what leaks is exactly one block for each constructor
    that threw, holding the elements built before, and one for each storage that a move assignment overwrote. *)
Theorem C131_fixedarray_exceptions_partial : forall V (dflt : V) throws (p : list (op V)) m rs ls,
  expects dflt throws none 0 p = Some (m, rs, ls) -> no_bad_assign dflt throws none 0 p = true ->
  exists s, run V dflt throws empty_state p = Ok (s, rs) /\ map elements (leaked s) = ls
    /\ forall v, m v = Gone -> vars s v = None.
Proof.
  intros V dflt throws p m rs ls He Hn.
  destruct (run_ok V dflt throws p empty_state none 0 [] m rs ls (inv_init V) Hn He) as (s & Hr & k & HC & _ & _ & HL).
  exists s. split; [exact Hr|]. split; [exact HL|]. intros v E. rewrite HC, E. reflexivity.
Qed.
Print Assumptions C131_fixedarray_exceptions_partial.

(** The hypotheses are met by a program in which three constructors throw. *)
Definition sample : list (op nat) :=
  [NewSize 0 2; FromVector 1 [4; 5; 6]; FromVector 1 [7; 8; 9]; CopyCtor 2 1; CopyCtor 2 1; AssignCopy 0 2;
   GetAt 0 2; NewSize 3 2; AssignMove 1 2; GetAt 1 1; Size 2; Destroy 2; Destroy 1; Destroy 0].
Definition sample_throws (k : nat) : bool := (k =? 4) || (k =? 8) || (k =? 16).
Example C131_nonvacuous :
  (exists m, expects 0 sample_throws none 0 sample
     = Some (m, [Done; Threw; Done; Threw; Done; Done; Val 9; Threw; Done; Val 8; Num 0; Done; Done; Done],
             [[4; 5]; []; [0]; [7; 8; 9]])
     /\ forall v, m v = Gone)
  /\ no_bad_assign 0 sample_throws none 0 sample = true.
Proof.
  split; [|reflexivity]. eexists. split; [reflexivity|].
  intros v. cbn. do 8 (destruct v as [|v]; [reflexivity|]). reflexivity.
Qed.
