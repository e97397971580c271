(** C127: Functions that are captured by callables are part of their values. *)
From Verif Require Import Base FnNestModel FnNestSpec FnNestProofs.

Section C127.
Variable small : nat -> bool.

(** A program that assigns only between unrelated Functions sees in every call what it means, nothing freed is used or freed again,
    and when the Functions have gone out of scope every holder has been freed. *)
Theorem C127_captured_functions_are_values_partial : forall nf prog st seen, means (repeat None nf) prog st seen ->
  exists (bound : nat) (s : world) (h : list (option block)),
    (forall fuel, bound <= fuel -> run small fuel nf prog = Ok (s, seen) /\ finish fuel s = Ok h) /\
    forall b x, nth_error h b = Some x -> x = None.
Proof.
  intros nf prog st seen H. destruct (run_ok small _ _ _ _ H _ (start_ok nf)) as (n1 & s & Hr & HI).
  destruct (finish_ok small _ _ HI) as (n2 & h & Hf & Hh). exists (max n1 n2), s, h. split; auto.
  intros fuel Hl. split; [apply Hr|apply Hf]; lia.
Qed.

Lemma after : forall nf prog st seen, means (repeat None nf) prog st seen -> exists n s, Inv s st [] [] /\
  forall fuel k, n <= fuel -> run small fuel nf (prog ++ [k]) = do (s', es) <- step small fuel s k; Ok (s', seen ++ es).
Proof.
  intros nf prog st seen H. destruct (run_ok small _ _ _ _ H _ (start_ok nf)) as (n & s & Hr & HI). exists n, s. split; auto.
  intros fuel k Hf. unfold run. rewrite (run_app small _ _ [k] _ _ _ (Hr fuel Hf)). cbn [run_from].
  destruct (step small fuel s k) as [[s' es]| |]; cbn [bind]; auto. now rewrite app_nil_r.
Qed.

(** f = (a Function that f's own callable captures): the holder is deleted before the source is read. *)
Theorem C127_assign_from_own_capture_refuted : forall nf prog st seen p q m u v, means (repeat None nf) prog st seen ->
  at_ st p = Some u -> at_ st q = Some v -> inside q p ->
  exists bound : nat, forall fuel, bound <= fuel -> run small fuel nf (prog ++ [Assign p m q]) = Fault UseAfterFree.
Proof.
  intros nf prog st seen p q m u v H Hp Hq Hi. destruct (after _ _ _ _ H) as (n1 & s & HI & Hr).
  destruct (assign_from_inside small s st p m q u v HI Hp Hq Hi) as [n2 Hs]. exists (max n1 n2). intros fuel Hf.
  rewrite Hr by lia. rewrite Hs by lia. reflexivity.
Qed.
(** A copy of f into itself, or into a Function that f's callable captures, when the target is not empty: the copy reads what has
    just been destroyed. *)
Theorem C127_copy_into_own_capture_refuted : forall nf prog st seen p q m u v, means (repeat None nf) prog st seen ->
  at_ st p = Some (Some u) -> at_ st q = Some v -> p = q \/ inside p q -> m <> Moved ->
  exists bound : nat, forall fuel, bound <= fuel -> run small fuel nf (prog ++ [Assign p m q]) = Fault UseAfterFree.
Proof.
  intros nf prog st seen p q m u v H Hp Hq Hi Hm. destruct (after _ _ _ _ H) as (n1 & s & HI & Hr).
  destruct (assign_copy_bad small s st p m q u v HI Hp Hq Hi Hm) as [n2 Hs]. exists (max n1 n2). intros fuel Hf.
  rewrite Hr by lia. rewrite Hs by lia. reflexivity.
Qed.
(** std::move(f) into a Function that f's callable captures: the holder owns itself and is never freed. *)
Theorem C127_move_into_own_capture_refuted : forall nf prog st seen p q u v, means (repeat None nf) prog st seen ->
  at_ st p = Some u -> at_ st q = Some v -> inside p q ->
  exists (bound : nat) (s : world) (h : list (option block)) (b : nat) (x : block),
    (forall fuel, bound <= fuel -> run small fuel nf (prog ++ [Assign p Moved q]) = Ok (s, seen) /\ finish fuel s = Ok h) /\
    nth_error h b = Some (Some x).
Proof.
  intros nf prog st seen p q u v H Hp Hq Hi. destruct (after _ _ _ _ H) as (n1 & s & HI & Hr).
  destruct (move_into_itself small s st p q u v HI Hp Hq Hi) as (n2 & sF & h & b & x & Hs & Hb). exists (max n1 n2), sF, h, b, x. split; auto.
  intros fuel Hf. destruct (Hs fuel) as [H1 H2]; [lia|]. rewrite Hr by lia. rewrite H1. cbn [bind]. rewrite app_nil_r. auto.
Qed.
End C127.

(** A closure that captures two Functions, one copied and one moved; a holder around one of its captures; a capture replaced. *)
Definition demo : list cmd :=
  [Set_ (0, []) 5 []; Set_ (1, []) 6 [((0, []), Const); ((0, []), Moved)]; Call (0, []);
   Assign (0, []) NonConst (1, [0]); Assign (1, [1]) Const (0, []); Clear (1, [0]); Call (1, []); Assign (0, []) Moved (1, [1; 0]); Call (0, []); Call (1, [])].
Definition demo_end : store := [Some (Node 5 []); Some (Node 6 [None; Some (Node 0 [None])])].
Definition demo_seen : list (option tree) :=
  [None; Some (Node 6 [None; Some (Node 0 [Some (Node 5 [])])]); Some (Node 5 []); Some (Node 6 [None; Some (Node 0 [None])])].
Lemma unrelated_roots : forall a b ks js, a <> b -> unrelated (a, ks) (b, js).
Proof. intros a b ks js H. repeat split; [congruence| |]; intros [E _]; cbn in E; congruence. Qed.
Example C127_demo : means (repeat None 2) demo demo_end demo_seen.
Proof.
  unfold demo. cbn [repeat].
  eapply m_set; [constructor|reflexivity|]. eapply m_set; [repeat (eapply t_cons; [reflexivity|]); constructor|reflexivity|].
  eapply m_call; [reflexivity|]. do 2 (eapply m_assign; [reflexivity|reflexivity|left; now apply unrelated_roots|]).
  eapply m_clear; [reflexivity|]. eapply m_call; [reflexivity|]. eapply m_assign; [reflexivity|reflexivity|left; now apply unrelated_roots|].
  do 2 (eapply m_call; [reflexivity|]). apply m_done.
Qed.
Example C127_demo_runs : exists s, run (fun _ => true) 20 2 demo = Ok (s, demo_seen).
Proof. eexists. vm_compute. reflexivity. Qed.
(** head = head's next, and the other two assignments that the meaning leaves out, after a non-trivial program. *)
Example C127_demo_inside : inside (1, [1]) (1, []) /\ at_ demo_end (1, [1]) = Some (Some (Node 0 [None])) /\ at_ demo_end (1, []) <> Some None.
Proof. split; [split; [reflexivity|now exists 1, []]|]. split; [reflexivity|discriminate]. Qed.
