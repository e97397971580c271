(** Common vocabulary of the AMTL model: outcomes, machine integers, array update. *)
From Coq Require Export List Arith NArith ZArith Lia Bool Permutation.
From Coq Require Export ZifyBool ZifyNat ZifyN.
Export ListNotations.

(** What can go wrong when C++ code runs.  Each constructor is a distinct outcome of the model, never
    silently absorbed into a result. *)
Inductive fault :=
| NullDeref        (* dereference of a null pointer *)
| OutOfBounds      (* access outside an array or buffer *)
| UseAfterFree     (* access to a destroyed or freed object *)
| DoubleFree       (* second destruction / free of the same object *)
| Uninit           (* use of storage holding no constructed object / indeterminate value *)
| Leak             (* storage overwritten or freed while it holds a live object *)
| MovedFrom        (* use of the value of a moved-from object *)
| SignedOverflow   (* signed integer overflow *)
| BadShift         (* shift that the language leaves undefined *)
| BadArg           (* library call outside its documented domain *)
| AssertFail       (* assert() failed in a debug build *)
| DataRace         (* conflicting accesses not ordered by happens-before *)
| Abort.           (* abort() was called *)

Inductive outcome (A : Type) :=
| Ok (a : A)
| Fault (f : fault)
| Diverge.         (* the modelled loop ran out of fuel *)
Arguments Ok {A} a.
Arguments Fault {A} f.
Arguments Diverge {A}.

Definition bind {A B} (x : outcome A) (f : A -> outcome B) : outcome B :=
  match x with Ok a => f a | Fault e => Fault e | Diverge => Diverge end.

Notation "'do' x <- e ; k" := (bind e (fun x => k))
  (at level 200, x pattern, e at level 100, k at level 200).

(** assert(c): fails only in debug builds (NDEBUG undefined). *)
Definition assert_ (debug c : bool) : outcome unit :=
  if debug && negb c then Fault AssertFail else Ok tt.

(** Unsigned wrap-around arithmetic of a given width. *)
Definition uw (w : N) (x : N) : N := (x mod 2 ^ w)%N.
Definition uadd (w a b : N) : N := ((a + b) mod 2 ^ w)%N.
Definition umul (w a b : N) : N := ((a * b) mod 2 ^ w)%N.
Definition usub (w a b : N) : N := ((a + (2 ^ w - b mod 2 ^ w)) mod 2 ^ w)%N.
Definition ushl (w a s : N) : N := (N.shiftl a s mod 2 ^ w)%N.

(** Array element update. *)
Fixpoint upd {A} (l : list A) (i : nat) (x : A) : list A :=
  match l, i with
  | [], _ => []
  | _ :: t, O => x :: t
  | h :: t, S j => h :: upd t j x
  end.

Definition slot_get {A} (l : list A) (i : nat) : outcome A :=
  match nth_error l i with Some x => Ok x | None => Fault OutOfBounds end.
Definition slot_set {A} (l : list A) (i : nat) (x : A) : outcome (list A) :=
  if i <? length l then Ok (upd l i x) else Fault OutOfBounds.

Lemma upd_length {A} (l : list A) i x : length (upd l i x) = length l.
Proof. revert i; induction l as [|h t IH]; intros [|i]; cbn; auto. Qed.

Lemma nth_error_upd_eq {A} (l : list A) i x :
  i < length l -> nth_error (upd l i x) i = Some x.
Proof. revert i; induction l as [|h t IH]; intros [|i] Hi; cbn in *; try lia; auto. apply IH; lia. Qed.

Lemma nth_error_upd_ne {A} (l : list A) i j x :
  i <> j -> nth_error (upd l i x) j = nth_error l j.
Proof. revert i j; induction l as [|h t IH]; intros [|i] [|j] Hij; cbn; auto; try lia. Qed.

Lemma nth_error_upd {A} (l : list A) i j x :
  nth_error (upd l i x) j =
  if (i =? j) && (i <? length l) then Some x else nth_error l j.
Proof.
  destruct (Nat.eqb_spec i j) as [->|Hne]; cbn [andb].
  - destruct (Nat.ltb_spec j (length l)).
    + apply nth_error_upd_eq; assumption.
    + rewrite !(proj2 (nth_error_None _ _)); auto; rewrite ?upd_length; lia.
  - apply nth_error_upd_ne; assumption.
Qed.

Lemma upd_split {A} (l : list A) i x y :
  nth_error l i = Some y ->
  exists l1 l2, l = l1 ++ y :: l2 /\ length l1 = i /\ upd l i x = l1 ++ x :: l2.
Proof.
  revert i; induction l as [|h t IH]; intros [|i] Hi; cbn in *; try discriminate.
  - injection Hi as ->. exists [], t. auto.
  - destruct (IH _ Hi) as (l1 & l2 & -> & Hl & Hu). exists (h :: l1), l2. cbn. rewrite Hu. auto.
Qed.

Lemma slot_get_ok {A} (l : list A) i x : nth_error l i = Some x -> slot_get l i = Ok x.
Proof. unfold slot_get; now intros ->. Qed.
Lemma slot_set_ok {A} (l : list A) i x : i < length l -> slot_set l i x = Ok (upd l i x).
Proof. intros H. unfold slot_set. apply Nat.ltb_lt in H. now rewrite H. Qed.
