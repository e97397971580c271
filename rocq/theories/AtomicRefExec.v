(** A checker for legality of concrete schedules, used by the non-vacuity examples. *)
From Verif Require Import Base AtomicRefModel AtomicRefSpec AtomicRefProofs AtomicRefStep.
Local Open Scope N_scope.

Definition inb (a : N) (l : list N) : bool := existsb (N.eqb a) l.
Definition usesb (p : pc) (c : nat) : bool :=
  match p with
  | LkLoad d _ | LkCas d _ _ | CritAdd d _ _ | UnA d _ _ | UnB d _ _ _ | UnStore d _ _ | CtAdd d _ => Nat.eqb d c
  | _ => false
  end.
Definition allowedb (s : state) (e : event) : bool :=
  match e with
  | ECont t => match nth_error (threads s) t with Some th => match tpc th with Idle => false | _ => true end | None => false end
  | EStart t a =>
      match nth_error (threads s) t with
      | Some (Thread Idle l) =>
          let lv c := match nth_error (cells s) c with Some (CLive _) => true | _ => false end in
          match a with
          | ANew p => match hp s p with None => negb (p =? 0) && (p mod 8 =? 0) | Some _ => false end
          | AAddRef p | ARelease p => inb p l
          | AGive p u => inb p l && Nat.ltb u (length (threads s))
          | AGet c => lv c
          | ASet c p => lv c && ((p =? 0) || inb p l)
          | ACtor c p => match nth_error (cells s) c with Some CNone => true | _ => false end && ((p =? 0) || inb p l)
          | ADtor c => lv c && forallb (fun th => negb (usesb (tpc th) c)) (threads s)
          end
      | _ => false
      end
  end.
Lemma inb_ok a l : inb a l = true -> In a l.
Proof. intros H. apply existsb_exists in H as (x & Hx & E). apply N.eqb_eq in E. congruence. Qed.
Lemma allowedb_ok s e : allowedb s e = true -> allowed s e.
Proof.
  destruct e as [t a|t]; cbn [allowedb allowed].
  2: { destruct (nth_error (threads s) t) as [th|]; [|discriminate]. intros H. exists th. split; [reflexivity|]. intros X. rewrite X in H. discriminate. }
  destruct (nth_error (threads s) t) as [[p l]|]; [|discriminate]. destruct p; try discriminate. intros H. exists (Thread Idle l). split; [reflexivity|]. split; [reflexivity|].
  cbn [held]. assert (L : forall c, match nth_error (cells s) c with Some (CLive _) => true | _ => false end = true -> exists w, nth_error (cells s) c = Some (CLive w)).
  { intros c X. destruct (nth_error (cells s) c) as [[| |w]|]; try discriminate. eauto. }
  assert (Q : forall q, (q =? 0) || inb q l = true -> q = 0 \/ In q l).
  { intros q X. apply orb_prop in X as [X|X]; [left; now apply N.eqb_eq|right; now apply inb_ok]. }
  destruct a as [a|a|a|a u|c|c q|c q|c].
  - destruct (hp s a); [discriminate|]. apply andb_prop in H as [H1 H2]. apply negb_true_iff, N.eqb_neq in H1. apply N.eqb_eq in H2. auto.
  - now apply inb_ok.
  - now apply inb_ok.
  - apply andb_prop in H as [H1 H2]. split; [now apply inb_ok|now apply Nat.ltb_lt].
  - auto.
  - apply andb_prop in H as [H1 H2]. auto.
  - apply andb_prop in H as [H1 H2]. destruct (nth_error (cells s) c) as [[| |]|]; try discriminate. auto.
  - apply andb_prop in H as [H1 H2]. split; [auto|]. intros u th Hu X.
    rewrite forallb_forall in H2. apply nth_error_In in Hu. specialize (H2 _ Hu). apply negb_true_iff in H2.
    destruct (tpc th); cbn [uses usesb] in *; try contradiction; subst; rewrite Nat.eqb_refl in H2; discriminate.
Qed.
Section B.
Variable vt : variant.
Variable debug : bool.
Fixpoint legalb (s : state) (es : list event) : bool :=
  match es with
  | [] => true
  | e :: r => allowedb s e && match step vt debug s e with Ok (s', _) => legalb s' r | _ => true end
  end.
Lemma legalb_ok : forall es s, legalb s es = true -> legal vt debug s es.
Proof.
  induction es as [|e es IH]; intros s H; cbn [legalb] in H; [constructor|]. apply andb_prop in H as [H1 H2].
  constructor; [now apply allowedb_ok|]. intros s' o E. rewrite E in H2. auto.
Qed.
End B.
