(** Property theorems C137: am-raii.h with copies and callbacks that throw. *)
From Verif Require Import Base RaiiModel RaiiThrowModel RaiiThrowSpec RaiiThrowProofs.

(** A program that starts without guards. *)
Definition start {V} (m : memory V) : tstate V := TState m 0 [] [].

(** Whatever throws: when a program is in control after its last scope, no guard is left, and each guard made has
    either run its callback once or been cancelled. *)
Theorem C137_guards_once : forall V throws torn (p : prog V) m s,
  ended (exec throws torn p (start m)) s ->
  live s = [] /\ forall i, times (Made i) (events s) = times (Ran i) (events s) + times (Cancelled i) (events s).
Proof.
  intros V throws torn p m s H. destruct (exec_books V throws torn p _ _ H) as [L B]. cbn in L.
  apply map_eq_nil in L. split; [exact L|]. intros i. specialize (B i eq_refl). unfold bal in B. rewrite L in B. cbn in B. lia.
Qed.
Print Assumptions C137_guards_once.

(** A scope of SaveAndSet that ends normally leaves its location as it was before, whatever its body does and throws;
    and one that an exception leaves does so too, unless the assignment in the constructor threw. *)
Theorem C137_save_restores : forall V throws torn l x (body : prog V) s s',
  exec throws torn (PSave l x body) s = Done s' -> mem s' l = mem s l.
Proof.
  intros V throws torn l x body s s' H. destruct (save_restores V throws torn l x body s s' (or_introl H)) as [E|(_ & _ & E & _)];
  [exact E|congruence].
Qed.
Print Assumptions C137_save_restores.
Theorem C137_save_restores_exception : forall V throws torn l x (body : prog V) s s',
  exec throws torn (PSave l x body) s = Thrown s' -> throws (S (clock s)) = false -> mem s' l = mem s l.
Proof.
  intros V throws torn l x body s s' H N. destruct (save_restores V throws torn l x body s s' (or_intror H)) as [E|(_ & E & _)];
  [exact E|congruence].
Qed.
Print Assumptions C137_save_restores_exception.

(** If a T whose assignment throws keeps its value, a program that assigns only inside scopes of the locations it assigns to
    leaves all memory as it was, whether it ends normally or by an exception. *)
Theorem C137_strong_restores : forall V throws torn (p : prog V), (forall old new, torn old new = old) ->
  writes_only [] p -> forall s s', ended (exec throws torn p s) s' -> forall l, mem s' l = mem s l.
Proof. intros V throws torn p St W s s' H l. apply (exec_outside V throws torn St [] p W s s' H l). auto. Qed.
Print Assumptions C137_strong_restores.

(** Full statement (false): an exception can be handled, and the location has its old value then.  When the copy back in
    ~SaveAndSet throws, the program is terminated, whatever handlers there are, however the body ended. *)
Theorem C137_save_exception_refuted : forall V throws torn l x (body handler : prog V) s s2,
  throws (clock s) = false -> throws (S (clock s)) = false ->
  ended (exec throws torn body (TState (poke (mem s) l x) (S (S (clock s))) (live s) (events s))) s2 ->
  throws (clock s2) = true ->
  exec throws torn (PTry (PSave l x body) handler) s = Terminated.
Proof.
  intros V throws torn l x body handler s s2 T1 T2 H T3. cbn [exec]. rewrite T1. unfold assign. cbn [tick clock]. rewrite T2.
  change (tick (with_mem (tick s) (poke (mem (tick s)) l x))) with (TState (poke (mem s) l x) (S (S (clock s))) (live s) (events s)).
  destruct H as [-> | ->]; cbn [restore]; unfold assign; now rewrite T3.
Qed.
Print Assumptions C137_save_exception_refuted.
(** The same for a callback that throws in ~ScopeGuard, and for one that throws while it is handed over. *)
Theorem C137_guard_exception_refuted : forall V throws torn i (callback body handler : prog V) s s2 g s3,
  throws (clock s) = false ->
  ended (exec throws torn body (TState (mem s) (S (clock s)) ((i, false) :: live s) (events s ++ [Made i]))) s2 ->
  live s2 = (i, false) :: g ->
  exec throws torn callback (TState (mem s2) (clock s2) g (events s2 ++ [Ran i])) = Thrown s3 ->
  exec throws torn (PTry (PGuard i callback body) handler) s = Terminated.
Proof.
  intros V throws torn i callback body handler s s2 g s3 T1 H L C. cbn [exec]. rewrite T1.
  change (note (with_live (tick s) ((i, false) :: live s)) (Made i))
    with (TState (mem s) (S (clock s)) ((i, false) :: live s) (events s ++ [Made i])).
  destruct H as [-> | ->]; cbn [end_guard]; rewrite L; unfold note, with_live; cbn [mem clock events live]; now rewrite C.
Qed.
Print Assumptions C137_guard_exception_refuted.
Theorem C137_guard_move_refuted : forall V throws torn i (callback body handler : prog V) s,
  throws (clock s) = true -> exec throws torn (PTry (PGuard i callback body) handler) s = Terminated.
Proof. intros V throws torn i callback body handler s T. cbn [exec]. now rewrite T. Qed.
Print Assumptions C137_guard_move_refuted.
(** And when the assignment in the constructor throws, what it has written stays, although the old value was saved. *)
Theorem C137_constructor_refuted : forall V throws torn l x (body : prog V) s,
  throws (clock s) = false -> throws (S (clock s)) = true ->
  exists s', exec throws torn (PSave l x body) s = Thrown s' /\ mem s' l = torn (mem s l) x.
Proof.
  intros V throws torn l x body s T1 T2. cbn [exec]. rewrite T1. unfold assign. cbn [tick clock]. rewrite T2.
  eexists. split; [reflexivity|]. cbn. unfold poke. now rewrite Nat.eqb_refl.
Qed.
Print Assumptions C137_constructor_refuted.

(** Where nothing throws, these are the programs of C67. *)
Theorem C137_no_exceptions : forall V throws torn (p : prog V) t, (forall n, throws n = false) -> plain p t -> forall m,
  exists s, exec throws torn p (start m) = Done s /\ srun (m, []) t = Ok (mem s, []).
Proof.
  intros V throws torn p t No P m. destruct (exec_plain V throws torn No p t P (start m) []) as (s & E & R & _). eauto.
Qed.
Print Assumptions C137_no_exceptions.

(** And nothing else terminates a program: if no copy throws and no callback does, whatever the program itself throws and catches,
    it stays in control. *)
Theorem C137_only_those_terminate : forall V throws torn (p : prog V), (forall n, throws n = false) -> calm_callbacks p -> forall m,
  exists s, ended (exec throws torn p (start m)) s.
Proof. intros V throws torn p No C m. exact (exec_ends V throws torn No p C (start m)). Qed.
Print Assumptions C137_only_those_terminate.

(** ReturnAndVoid: with a T whose assignment keeps its value when it throws, and a return value constructed in place, either
    the old value is returned and T() is left, or an exception leaves everything as it was. *)
Theorem C137_return_and_void : forall V throws torn (dflt : V) s l, (forall old new, torn old new = old) ->
  match return_and_void_throws throws torn true dflt s l with
  | (Some v, s') => v = mem s l /\ mem s' l = dflt /\ forall k, k <> l -> mem s' k = mem s k
  | (None, s') => forall k, mem s' k = mem s k
  end.
Proof.
  intros V throws torn dflt s l St. unfold return_and_void_throws, assign. destruct (throws (clock s)); [reflexivity|].
  destruct (throws (S (clock s))); [reflexivity|]. destruct (throws (clock (tick (tick s)))); cbn; unfold poke.
  - intros k. rewrite St. destruct (Nat.eqb_spec k l) as [->|]; reflexivity.
  - rewrite Nat.eqb_refl. repeat split; auto. intros k Hk. now apply Nat.eqb_neq in Hk as ->.
Qed.
Print Assumptions C137_return_and_void.
(** Full statement (false): for every compiler.  If the return value is moved and that move throws, the old value is lost: the
    location already holds T(). *)
Theorem C137_return_and_void_refuted : forall V throws torn (dflt : V) s l,
  throws (clock s) = false -> throws (S (clock s)) = false -> throws (S (S (clock s))) = false -> throws (S (S (S (clock s)))) = true ->
  exists s', return_and_void_throws throws torn false dflt s l = (None, s') /\ mem s' l = dflt.
Proof.
  intros V throws torn dflt s l T1 T2 T3 T4. unfold return_and_void_throws, assign. cbn [tick clock]. rewrite T1, T2, T3. cbn. rewrite T4.
  eexists. split; [reflexivity|]. cbn. unfold poke. now rewrite Nat.eqb_refl.
Qed.
Print Assumptions C137_return_and_void_refuted.

(** Concrete programs: the n-th copy throws; a torn assignment writes 99. *)
Section Examples.
Let nth_throws (n k : nat) : bool := k =? n.
Let never (k : nat) : bool := false.
Let tear (old new : nat) : nat := 99.
Let m0 : memory nat := fun l => l.
(** Nested scopes of one location, a guard cancelled by an inner scope, one run during unwinding, and a handler. *)
Let program := PTry (PSave 1 10 (PGuard 0 (PWrite 7 70) (PGuard 1 (PWrite 8 80) (PSeq (PCancel 0) (PSeq (PSave 1 20 (PWrite 1 21)) PThrow)))))
  (PWrite 5 50).
Definition summary (e : ending nat) : option (bool * list nat * list gevent) :=
  match e with Done s => Some (true, map (mem s) [1; 5; 7; 8], events s) | Thrown s => Some (false, map (mem s) [1; 5; 7; 8], events s)
  | Terminated => None end.
Example C137_unwinding : summary (exec never tear program (start m0)) =
  Some (true, [1; 50; 70; 8], [Made 0; Made 1; Cancelled 1; Ran 0]).
Proof. reflexivity. Qed.
(** An exception of the assignment in the inner constructor (the 6th copy): the outer scope still restores. *)
Example C137_inner_constructor : summary (exec (nth_throws 5) tear program (start m0)) =
  Some (true, [1; 50; 70; 8], [Made 0; Made 1; Cancelled 1; Ran 0]).
Proof. reflexivity. Qed.
(** The copy back of the inner scope throws, or the write in a callback. *)
Example C137_terminates : summary (exec (nth_throws 7) tear program (start m0)) = None
  /\ summary (exec (nth_throws 8) tear program (start m0)) = None.
Proof. split; reflexivity. Qed.
Example C137_torn : summary (exec (nth_throws 1) tear program (start m0)) = Some (true, [99; 50; 7; 8], []).
Proof. reflexivity. Qed.
(** The hypotheses of the theorems above hold of these programs. *)
Example C137_hypotheses :
  writes_only [] (PSave 1 10 (PGuard 0 (PWrite 1 70) (PSeq (PSave 1 20 (PWrite 1 21)) PThrow)))
  /\ plain (PSave 1 10 (PSeq (PWrite 7 3) (PSave 1 20 (PWrite 1 21)))) [Enter 1 10; Write 7 3; Enter 1 20; Write 1 21; Leave; Leave]
  /\ (exists s, exec (nth_throws 2) tear (PWrite 1 5) (TState (poke m0 1 10) 2 [] []) = Thrown s)
  /\ (exists s, ended (exec (nth_throws 3) tear (PWrite 1 5) (TState (poke m0 1 10) 2 [] [])) s /\ nth_throws 3 (clock s) = true)
  /\ calm_callbacks program
  /\ (exists s, exec never tear PThrow (TState m0 1 [] [Made 0; Ran 0]) = Thrown s).
Proof.
  split; [|split; [|split; [|split; [|split]]]].
  - repeat (constructor; cbn; auto).
  - apply (p_save 1 10 _ ([Write 7 3] ++ Enter 1 20 :: [Write 1 21] ++ [Leave])). repeat constructor.
  - eexists. reflexivity.
  - eexists. split; [left; reflexivity|reflexivity].
  - cbn. auto 10.
  - eexists. reflexivity.
Qed.
End Examples.
