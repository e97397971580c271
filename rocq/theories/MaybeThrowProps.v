(** Property theorems C130: am-maybe.h with a T whose constructors may throw. *)
From Verif Require Import Base MaybeThrowModel MaybeThrowSpec MaybeThrowProofs.

(** Full statement (false): every program whose expected behaviour is defined runs without a fault.  When init()
    replaces a value and T's constructor throws, the old T has been destroyed while the Maybe still says that it
    holds one: isValid() answers true, and the destructor destroys the T a second time. *)
Theorem C130_maybe_exceptions_refuted : forall V debug (x y : V) throws,
  throws 0 = false -> throws 1 = true ->
  (expects throws none 0 [SomeCtor 0 x; Init 0 y; IsValid 0] <> None
   /\ exists s, run V debug throws empty_state [SomeCtor 0 x; Init 0 y; IsValid 0] = Ok (s, [Done; Threw; IsB true]))
  /\ (exists m, expects throws none 0 [SomeCtor 0 x; Init 0 y; IsValid 0] = Some (m, [Done; Threw; IsB false]))
  /\ (exists m, expects throws none 0 [SomeCtor 0 x; Init 0 y; Destroy 0] = Some (m, [Done; Threw; Done])
      /\ forall v, m v = Gone)
  /\ run V debug throws empty_state [SomeCtor 0 x; Init 0 y; Destroy 0] = Fault DoubleFree.
Proof.
  intros V debug x y throws H0 H1. cbn. rewrite H0, H1. cbn. rewrite H1. cbn.
  split; [split; [discriminate|eexists; reflexivity]|].
  split; [eexists; reflexivity|].
  split; [|reflexivity].
  eexists. split; [reflexivity|]. intros [|v]; reflexivity.
Qed.
Print Assumptions C130_maybe_exceptions_refuted.

(** It is so in every state: after any failed init() of a variable that holds a T, ending the variable or another
    init() destroys that T again. *)
Theorem C130_every_failed_init_refuted : forall V debug throws (s : state V) v x y z,
  vars s v = Some (Cell true (Some x)) -> throws (attempts s) = true ->
  exists s', step V debug throws s (Init v y) = Ok (s', Threw)
    /\ step V debug throws s' (Destroy v) = Fault DoubleFree
    /\ step V debug throws s' (Init v z) = Fault DoubleFree.
Proof.
  intros V debug throws s v x y z Hv Ht.
  destruct s as [vs k lo]; cbn in Hv, Ht.
  cbv delta [step init_with finish get_cell destroy_T construct_T set_init set_var dtor discard] beta.
  repeat (cbn -[Nat.eqb]; match goal with
    | |- context[vs v] => rewrite Hv
    | |- context[v =? v] => rewrite (Nat.eqb_refl v)
    | |- context[throws k] => rewrite Ht
    end).
  cbn -[Nat.eqb]. eexists. split; [reflexivity|]. cbn -[Nat.eqb].
  repeat (match goal with |- context[v =? v] => rewrite (Nat.eqb_refl v) end; cbn -[Nat.eqb]).
  auto.
Qed.
Print Assumptions C130_every_failed_init_refuted.

(** Everything else is safe: in every program that never re-initialises a variable holding a T with a constructor
    that throws, whatever else throws and wherever, each statement completes or throws exactly as expected and
    every later observation is the expected one; no T is ever destroyed twice or used when it does not exist. *)
Theorem C130_maybe_exceptions_partial : forall V debug throws (p : list (op V)) m rs,
  expects throws none 0 p = Some (m, rs) -> never throws (bad_init throws) none 0 p = true ->
  exists s, run V debug throws empty_state p = Ok (s, rs).
Proof.
  intros V debug throws p m rs He Hn.
  destruct (run_ok V debug throws false p empty_state none 0 m rs) as (s & H & _); eauto.
  - split; [|split]; [intros v; reflexivity|reflexivity|discriminate].
  - discriminate.
Qed.
Print Assumptions C130_maybe_exceptions_partial.

(** And exceptions leak nothing: if moreover the program never assigns over, or moves from, a variable that holds a
    T (the leaks of C56, which need no exception), then no T's storage is reused or dropped without its destructor
    having run, and a variable that holds no T has nothing in its storage. *)
Theorem C130_maybe_exceptions_release_partial : forall V debug throws (p : list (op V)) m rs,
  expects throws none 0 p = Some (m, rs) -> never throws (bad_init throws) none 0 p = true ->
  never throws (fun m _ o => abandons m o) none 0 p = true ->
  exists s, run V debug throws empty_state p = Ok (s, rs) /\ lost s = 0
    /\ forall v, vars s v = match m v with
                            | Gone => None
                            | Nothing => Some (Cell false None)
                            | Has x => Some (Cell true (Some x))
                            end.
Proof.
  intros V debug throws p m rs He Hn Ha.
  destruct (run_ok V debug throws true p empty_state none 0 m rs) as (s & H & k & HR & _ & Hl); eauto.
  - apply inv_init.
  - exists s. split; [exact H|]. split; [auto|]. intros v. specialize (HR v). destruct (m v); cbn in HR.
    + exact HR.
    + destruct HR as (st & -> & Ht). rewrite (Ht eq_refl). reflexivity.
    + exact HR.
Qed.
Print Assumptions C130_maybe_exceptions_release_partial.

(** The hypotheses are met by a program in which six of the nine constructions throw: in a copy constructor, in
    Some, in a move constructor, in init of an empty variable, in a copy and in a move assignment. *)
Definition sample : list (op nat) :=
  [SomeCtor 0 7; CopyCtor 1 0; SomeCtor 1 8; New 1; Init 1 9; IsValid 1; Assign 1 0; IsValid 1; Init 1 5; Get 1;
   New 2; AssignMove 2 0; IsValid 2; IsValid 0; CopyCtor 3 1; Get 3; MoveCtor 4 3; Destroy 3; Destroy 2; Destroy 1;
   Destroy 0].
Definition sample_throws (k : nat) : bool := negb ((k =? 0) || (k =? 5) || (k =? 7)).
Example C130_nonvacuous :
  (exists m, expects sample_throws none 0 sample
     = Some (m, [Done; Threw; Threw; Done; Threw; IsB false; Threw; IsB false; Done; Val (Some 5);
                 Done; Threw; IsB false; IsB true; Done; Val (Some 5); Threw; Done; Done; Done; Done])
     /\ forall v, m v = Gone)
  /\ never sample_throws (bad_init sample_throws) none 0 sample = true.
Proof.
  split; [|reflexivity]. eexists. split; [reflexivity|].
  intros v. cbn. do 8 (destruct v as [|v]; [reflexivity|]). reflexivity.
Qed.
(** The same without assignments over a value and without moves. *)
Definition sample2 : list (op nat) :=
  [SomeCtor 0 7; CopyCtor 1 0; SomeCtor 1 8; New 1; Init 1 9; IsValid 1; Assign 1 0; IsValid 1; Init 1 5; Get 1;
   CopyCtor 3 1; CopyCtor 3 1; Get 3; Destroy 3; Destroy 1; Destroy 0].
Example C130_release_nonvacuous :
  (exists m, expects sample_throws none 0 sample2
     = Some (m, [Done; Threw; Threw; Done; Threw; IsB false; Threw; IsB false; Done; Val (Some 5); Threw;
                 Done; Val (Some 5); Done; Done; Done]) /\ forall v, m v = Gone)
  /\ never sample_throws (bad_init sample_throws) none 0 sample2 = true
  /\ never sample_throws (fun m _ o => abandons m o) none 0 sample2 = true.
Proof.
  split; [|split; reflexivity]. eexists. split; [reflexivity|].
  intros v. cbn. do 8 (destruct v as [|v]; [reflexivity|]). reflexivity.
Qed.
