(** A checker for legality of concrete weak-memory schedules, used by the examples. *)
From Verif Require Import Base AtomicRefModel AtomicRefSpec AtomicRefProofs AtomicRefStep AtomicRefExec WeakModel WeakSpec.
Local Open Scope N_scope.

Definition read_okb (k : view) (h : history) (i : nat) : bool := Nat.ltb i (length h) && forallb (fun m => negb (k (mid m))) (firstn i h).
Definition slot_freeb (h : history) (i : nat) : bool :=
  match i with O => true | S j => match nth_error h j with Some m => negb (mrmw m) | None => true end end.
Lemma firstn_later (k : view) (h : history) i : forallb (fun m => negb (k (mid m))) (firstn i h) = true ->
  forall j m, (j < i)%nat -> nth_error h j = Some m -> k (mid m) = false.
Proof.
  revert i. induction h as [|x h IH]; intros [|i] H j m Hj Hm; try lia; [destruct j; discriminate|].
  cbn in H. apply andb_prop in H as [H1 H2]. destruct j as [|j]; cbn in Hm; [injection Hm as <-; now apply negb_true_iff|]. apply (IH i H2 j); [lia|auto].
Qed.
Lemma read_okb_ok k h i : read_okb k h i = true -> read_ok k h i.
Proof. intros H. apply andb_prop in H as [H1 H2]. split; [now apply Nat.ltb_lt|now apply firstn_later]. Qed.
Lemma slot_freeb_ok h i : slot_freeb h i = true -> slot_free h i.
Proof. destruct i as [|j]; cbn; [auto|]. intros H m E. rewrite E in H. now apply negb_true_iff. Qed.

Definition objb (w : wstate) (a : N) (P : history -> bool) : bool := match wheap w a with Some ob => P (counts w (wser ob)) | None => true end.
Definition cellb (w : wstate) (c : nat) (P : history -> bool) : bool := match nth_error (wcells w) c with Some (WLive _ _ h) => P h | _ => true end.
Definition choiceb (w : wstate) (p : pc) (k : view) (i : nat) : bool :=
  match p with
  | NewP a | Add a | RelSub a _ | CtAdd _ a => objb w a (fun h => read_okb k h i && slot_freeb h i)
  | CritAdd _ o v => objb w (target o v) (fun h => read_okb k h i && slot_freeb h i)
  | RelAssert a _ => objb w a (fun h => read_okb k h i)
  | LkLoad c _ | UnA c _ _ | UnB c _ _ _ => cellb w c (fun h => read_okb k h i)
  | LkCas c _ old => cellb w c (fun h => read_okb k h i && (match nth_error h i with Some m => negb (mval m =? old) | None => true end || slot_freeb h i))
  | UnStore c _ _ => cellb w c (fun h => Nat.leb i (length h) && forallb (fun m => negb (k (mid m))) (firstn i h) && slot_freeb h i)
  | Idle | RelDel _ _ | DtA _ => true
  end.
Lemma objb_ok w a P (Q : history -> Prop) : (forall h, P h = true -> Q h) -> objb w a P = true -> obj_hist w a Q.
Proof. intros X H ob E. unfold objb in H. rewrite E in H. auto. Qed.
Lemma cellb_ok w c P (Q : history -> Prop) : (forall h, P h = true -> Q h) -> cellb w c P = true -> cell_hist w c Q.
Proof. intros X H e us h E. unfold cellb in H. rewrite E in H. auto. Qed.
Lemma choiceb_ok w p k i : choiceb w p k i = true -> choice_ok w p k i.
Proof.
  assert (R : forall h, read_okb k h i && slot_freeb h i = true -> rmw_ok k h i).
  { intros h H. apply andb_prop in H as [H1 H2]. split; [now apply read_okb_ok|now apply slot_freeb_ok]. }
  destruct p; cbn [choiceb choice_ok]; auto; try (now apply objb_ok); try (apply objb_ok; intros h; apply read_okb_ok); try (apply cellb_ok; intros h; apply read_okb_ok).
  - apply cellb_ok. intros h H. apply andb_prop in H as [H1 H2]. split; [now apply read_okb_ok|]. intros m E V. rewrite E in H2.
    apply orb_prop in H2 as [H2|H2]; [apply negb_true_iff, N.eqb_neq in H2; contradiction|now apply slot_freeb_ok].
  - apply cellb_ok. intros h H. apply andb_prop in H as [H H3]. apply andb_prop in H as [H1 H2]. split; [now apply Nat.leb_le|]. split; [now apply firstn_later|now apply slot_freeb_ok].
Qed.

Section B.
Variables debug cas_acquire reuse ops : bool.
Definition wallowedb (w : wstate) (x : wevent) : bool :=
  match x with
  | WCont t i =>
      match nth_error (wths w) t with
      | Some th => match wpc th with Idle => false | _ => true end && choiceb w (wpc th) (know th) i
      | None => false
      end
  | WStart t a i =>
      match nth_error (wths w) t with
      | Some (WThread Idle l k) =>
          let known c := match nth_error (wcells w) c with Some (WLive e _ _) => k e | _ => false end in
          match a with
          | WTouch p => inb p l
          | WSync u => Nat.ltb u (length (wths w))
          | WDo (ANew p) => match wheap w p with None => negb (p =? 0) && (p mod 8 =? 0) && (reuse || match used w p with None => true | Some _ => false end) | Some _ => false end
          | WDo (AAddRef p) | WDo (ARelease p) => inb p l
          | WDo (AGive p u) => inb p l && Nat.ltb u (length (wths w))
          | WDo (AGet c) => ops && known c
          | WDo (ASet c p) => ops && known c && ((p =? 0) || inb p l)
          | WDo (ACtor c p) => match nth_error (wcells w) c with Some WNone => true | _ => false end && ((p =? 0) || inb p l)
          | WDo (ADtor c) =>
              match nth_error (wcells w) c with
              | Some (WLive e us h) => k e && forallb k us && read_okb k h i && forallb (fun th => negb (usesb (wpc th) c)) (wths w)
              | _ => false
              end
          end
      | _ => false
      end
  end.
Lemma wallowedb_ok w x : wallowedb w x = true -> wallowed reuse ops w x.
Proof.
  destruct x as [t a i|t i]; cbn [wallowedb wallowed].
  2: { destruct (nth_error (wths w) t) as [th|]; [|discriminate]. intros H. apply andb_prop in H as [H1 H2]. exists th. split; [reflexivity|].
       split; [intros X; rewrite X in H1; discriminate|now apply choiceb_ok]. }
  destruct (nth_error (wths w) t) as [[p l k]|]; [|discriminate]. destruct p; try discriminate. intros H. exists (WThread Idle l k). split; [reflexivity|]. split; [reflexivity|].
  cbn [wheld know]. assert (L : forall c, match nth_error (wcells w) c with Some (WLive e _ _) => k e | _ => false end = true -> known_cell w k c).
  { intros c X. unfold known_cell. destruct (nth_error (wcells w) c) as [[| |e us h]|]; try discriminate. eauto 6. }
  assert (Q : forall q, (q =? 0) || inb q l = true -> q = 0 \/ In q l).
  { intros q X. apply orb_prop in X as [X|X]; [left; now apply N.eqb_eq|right; now apply inb_ok]. }
  destruct a as [a|a|u]; [destruct a as [a|a|a|a u|c|c q|c q|c]|..].
  - destruct (wheap w a); [discriminate|]. apply andb_prop in H as [H H3]. apply andb_prop in H as [H1 H2]. apply negb_true_iff, N.eqb_neq in H1. apply N.eqb_eq in H2.
    split; [reflexivity|]. split; [exact H1|]. split; [exact H2|]. intros ->. cbn in H3. destruct (used w a); [discriminate|reflexivity].
  - now apply inb_ok.
  - now apply inb_ok.
  - apply andb_prop in H as [H1 H2]. split; [now apply inb_ok|now apply Nat.ltb_lt].
  - apply andb_prop in H as [H1 H2]. auto.
  - apply andb_prop in H as [H H2]. apply andb_prop in H as [H0 H1]. auto.
  - apply andb_prop in H as [H1 H2]. destruct (nth_error (wcells w) c) as [[| |]|]; try discriminate. auto.
  - destruct (nth_error (wcells w) c) as [[| |e us h]|]; try discriminate. apply andb_prop in H as [H H4]. apply andb_prop in H as [H H3]. apply andb_prop in H as [H1 H2].
    exists e, us, h. split; [reflexivity|]. split; [exact H1|]. split; [now apply forallb_forall|]. split; [now apply read_okb_ok|].
    intros u th Hu X. rewrite forallb_forall in H4. apply nth_error_In in Hu. specialize (H4 _ Hu). apply negb_true_iff in H4.
    destruct (wpc th); cbn [wuses usesb] in *; try contradiction; subst; rewrite Nat.eqb_refl in H4; discriminate.
  - now apply inb_ok.
  - now apply Nat.ltb_lt.
Qed.
Fixpoint wlegalb (w : wstate) (xs : list wevent) : bool :=
  match xs with
  | [] => true
  | x :: r => wallowedb w x && match wstep debug cas_acquire w x with Ok (w', _) => wlegalb w' r | _ => true end
  end.
Lemma wlegalb_ok : forall xs w, wlegalb w xs = true -> wlegal debug cas_acquire reuse ops w xs.
Proof.
  induction xs as [|x xs IH]; intros w H; cbn [wlegalb] in H; [constructor|]. apply andb_prop in H as [H1 H2].
  constructor; [now apply wallowedb_ok|]. intros w' o E. rewrite E in H2. auto.
Qed.
End B.
