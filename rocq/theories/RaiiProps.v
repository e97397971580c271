(** Property theorems C67-C69: am-raii.h. *)
From Verif Require Import Base RaiiModel RaiiSpec RaiiProofs.

(** * C67 *)
(** For every scope, whatever properly nested code its body is (writes to any location, including its own, and
    scopes of any depth): the location holds the new value on entry, and its previous value after exit; other
    locations are as the body left them; enclosing scopes are undisturbed. *)
Theorem C67_saveandset_restores : forall V (body : list (sev V)) l x m stack,
  nested body ->
  exists m1 s1 m2 m',
    srun (m, stack) [Enter l x] = Ok (m1, s1) /\ m1 l = x /\ (forall k, k <> l -> m1 k = m k)
    /\ srun (m1, s1) body = Ok (m2, s1)
    /\ srun (m2, s1) [Leave] = Ok (m', stack) /\ m' l = m l /\ (forall k, k <> l -> m' k = m2 k).
Proof.
  intros V body l x m stack Hn. exists (poke m l x), ((l, m l) :: stack).
  destruct (nested_runs V body Hn (poke m l x) ((l, m l) :: stack)) as (m2 & Hr & _).
  exists m2, (poke m2 l (m l)). unfold poke. rewrite !Nat.eqb_refl.
  split; [reflexivity|]. split; [reflexivity|]. split; [intros k Hk; now apply Nat.eqb_neq in Hk as ->|].
  split; [exact Hr|]. split; [reflexivity|]. split; [reflexivity|]. intros k Hk. now apply Nat.eqb_neq in Hk as ->.
Qed.
Print Assumptions C67_saveandset_restores.

(** A whole nested program has the effect given by its structure, and leaves no scope open. *)
Theorem C67_saveandset_effect : forall V (t : list (sev V)) m,
  nested t -> exists m', srun (m, []) t = Ok (m', []) /\ effect t m m'.
Proof. intros V t m Hn. apply nested_runs; auto. Qed.
Print Assumptions C67_saveandset_effect.

(** A program that writes only inside scopes of the locations it writes to leaves memory unchanged. *)
Inductive guarded {V} : list loc -> list (sev V) -> Prop :=
| g_nil ls : guarded ls []
| g_write ls l x : In l ls -> guarded ls [Write l x]
| g_scope ls l x body : guarded (l :: ls) body -> guarded ls (Enter l x :: body ++ [Leave])
| g_seq ls a b : guarded ls a -> guarded ls b -> guarded ls (a ++ b).
Theorem C67_saveandset_guarded : forall V (t : list (sev V)) ls,
  guarded ls t -> forall m stack,
  exists m', srun (m, stack) t = Ok (m', stack) /\ forall k, ~ In k ls -> m' k = m k.
Proof.
  intros V t ls Hg. induction Hg as [ls|ls l x Hin|ls l x body Hb IH|ls a b Ha IHa Hb IHb]; intros m stack.
  - exists m. auto.
  - eexists. split; [reflexivity|]. intros k Hk. unfold poke. destruct (Nat.eqb_spec k l); [congruence|auto].
  - cbn [srun sstep bind]. rewrite srun_app. destruct (IH (poke m l x) ((l, m l) :: stack)) as (m2 & -> & H2).
    cbn [bind srun sstep]. eexists. split; [reflexivity|]. intros k Hk. unfold poke.
    destruct (Nat.eqb_spec k l) as [->|Hkl]; auto. rewrite H2.
    + unfold poke. now apply Nat.eqb_neq in Hkl as ->.
    + intros [?|?]; congruence.
  - rewrite srun_app. destruct (IHa m stack) as (m1 & -> & H1). cbn [bind].
    destruct (IHb m1 stack) as (m2 & -> & H2). exists m2. split; auto. intros k Hk. now rewrite H2, H1.
Qed.
Print Assumptions C67_saveandset_guarded.

Example C67_nonvacuous :
  nested (Enter 0 5 :: ([Write 0 6] ++ (Enter 0 7 :: ([Write 1 9]) ++ [Leave])) ++ [Leave])
  /\ exists m', srun (fun _ => 1, []) (Enter 0 5 :: ([Write 0 6] ++ (Enter 0 7 :: ([Write 1 9]) ++ [Leave])) ++ [Leave])
     = Ok (m', []) /\ m' 0 = 1 /\ m' 1 = 9.
Proof.
  split.
  - apply n_scope, n_seq; [apply n_write|apply n_scope, n_write].
  - eexists. split; [reflexivity|]. split; reflexivity.
Qed.

(** * C68 *)
(** For every history of making, moving, cancelling and destroying guards: no fault (in particular no moved-from
    callback is ever run), the callbacks run are exactly those of guards destroyed while armed, in that order;
    and once every guard is gone, the callbacks handed over are exactly those run plus those cancelled - each
    once. *)
Theorem C68_scopeguard_once : forall C (t : list (gev C)) m ran dropped,
  gmeanings no_guards t = Some (m, ran, dropped) ->
  exists s, grun gempty t = Ok s /\ log s = ran
    /\ ((forall v, m v = None) -> Permutation (made t) (log s ++ dropped)).
Proof.
  intros C t m r d Hm. destruct (grun_ok C t gempty no_guards m r d) as (s & Hr & Ha & Hl); auto.
  { intros v. exact I. }
  cbn in Hl. exists s. split; [exact Hr|]. split; [exact Hl|]. intros Hend. rewrite Hl.
  set (vs := nodup Nat.eq_dec (flat_map (gvars_of C) t)).
  pose proof (gmeanings_conserves C vs t no_guards m r d Hm (NoDup_nodup _ _)) as P.
  assert (Hi : incl (flat_map (gvars_of C) t) vs) by (intros z Hz; now apply nodup_In).
  specialize (P Hi).
  assert (H0 : forall ws, held C no_guards ws = []) by (induction ws; cbn; auto).
  assert (H1 : forall ws, held C m ws = []) by (induction ws; cbn; rewrite ?Hend; auto).
  rewrite H0, H1, !app_nil_r in P. exact P.
Qed.
Print Assumptions C68_scopeguard_once.

(** Counting form: with decidable equality on callbacks, each is run as often as it was handed over minus how
    often it was cancelled; handed over once and never cancelled, it runs exactly once. *)
Theorem C68_scopeguard_count : forall C (eq_dec : forall x y : C, {x = y} + {x <> y}) (t : list (gev C)) m ran dropped c,
  gmeanings no_guards t = Some (m, ran, dropped) -> (forall v, m v = None) ->
  exists s, grun gempty t = Ok s
    /\ count_occ eq_dec (made t) c = count_occ eq_dec (log s) c + count_occ eq_dec dropped c.
Proof.
  intros C eq_dec t m r d c Hm Hend.
  destruct (C68_scopeguard_once C t m r d Hm) as (s & Hr & _ & P). exists s. split; [exact Hr|].
  rewrite <- count_occ_app. apply (Permutation_count_occ eq_dec). auto.
Qed.
Print Assumptions C68_scopeguard_count.

Example C68_nonvacuous : exists m,
  gmeanings no_guards [GMake 0 7 2; GMove 1 0; GMake 2 8 0; GMake 3 9 1; GCancel 3; GMove 4 3; GDestroy 0; GDestroy 2;
                       GCancel 0; GDestroy 1] = None
  /\ gmeanings no_guards [GMake 0 7 2; GMove 1 0; GMake 2 8 0; GMake 3 9 1; GCancel 3; GMove 4 3; GDestroy 0;
                          GDestroy 2; GDestroy 1; GDestroy 3; GDestroy 4] = Some (m, [8; 7], [9])
  /\ forall v, m v = None.
Proof.
  eexists. split; [reflexivity|]. split; [reflexivity|].
  intros v. do 5 (destruct v as [|v]; [reflexivity|]). reflexivity.
Qed.

(** * C69 *)
(** For every history of properly nested lifetimes, over any number of list heads: no assertion fails, each head
    is null or the innermost live object of its list, and following prev links from it enumerates that list's
    live objects, innermost first. *)
Theorem C69_stacklinked_head : forall debug t m,
  scoped no_stacks t m ->
  exists s, lrun debug lempty t = Ok s
    /\ forall h, heads s h = hd_error (m h) /\ walk (length (m h)) s (heads s h) = Ok (m h).
Proof.
  intros debug t m Hs. destruct (scoped_runs debug _ _ _ Hs _ linv_init) as (s & Hr & Hi).
  exists s. split; [exact Hr|]. intros h. split; [now apply head_ok|].
  eapply walk_ok; [apply (l_chain _ _ Hi)|lia].
Qed.
Print Assumptions C69_stacklinked_head.

(** In debug builds the assertion is exact: a history runs to the end if and only if it is properly nested. *)
Theorem C69_stacklinked_assert_exact : forall t,
  (exists s, lrun true lempty t = Ok s) <-> exists m, scoped no_stacks t m.
Proof.
  intros t. split.
  - intros [s Hr]. eapply debug_scoped; [apply linv_init|exact Hr].
  - intros [m Hs]. destruct (scoped_runs true _ _ _ Hs _ linv_init) as (s & Hr & _). eauto.
Qed.
Print Assumptions C69_stacklinked_assert_exact.

(** Without the assertion, out-of-order destruction leaves the head pointing at a destroyed object. *)
Theorem C69_stacklinked_unnested_release :
  exists s, lrun false lempty [LNew 0 0; LNew 1 0; LDelete 0; LDelete 1] = Ok s
    /\ walk 10 s (heads s 0) = Fault UseAfterFree.
Proof. eexists. split; reflexivity. Qed.
Print Assumptions C69_stacklinked_unnested_release.

Example C69_nonvacuous : exists m,
  scoped no_stacks [LNew 5 0; LNew 6 1; LNew 7 0; LDelete 6; LNew 8 0; LDelete 8; LNew 8 0] m /\ m 0 = [8; 7; 5] /\ m 1 = [].
Proof.
  eexists. split.
  - assert (F : forall m o, (forall h, ~ In o (m h)) -> ~ alive m o) by (intros m o H [h Hh]; exact (H h Hh)).
    Ltac fresh_name := unfold put_stack, no_stacks; intros h Hh; repeat destruct (_ =? _) in Hh; cbn in Hh; lia.
    apply s_new; [apply F; fresh_name|]. apply s_new; [apply F; fresh_name|]. apply s_new; [apply F; fresh_name|].
    apply (s_del _ 6 1 []); [reflexivity|]. apply s_new; [apply F; fresh_name|].
    apply (s_del _ 8 0 [7; 5]); [reflexivity|]. apply s_new; [apply F; fresh_name|]. apply s_nil.
  - split; reflexivity.
Qed.

(** ReturnAndVoid hands out the old value and leaves the default. *)
Theorem C67_return_and_void : forall V (dflt : V) m l,
  exists m', return_and_void dflt m l = (m l, m') /\ m' l = dflt /\ forall k, k <> l -> m' k = m k.
Proof.
  intros. eexists. split; [reflexivity|]. unfold poke. rewrite Nat.eqb_refl. split; auto.
  intros k Hk. now apply Nat.eqb_neq in Hk as ->.
Qed.
Print Assumptions C67_return_and_void.
