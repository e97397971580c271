(** A static check of include structures and its soundness: what a header contributes does not depend on the headers
    included before it. *)
From Coq Require Import String ZArith.
From Verif Require Import Base PreprocModel PreprocSpec.
Local Open Scope string_scope.
Local Open Scope list_scope.

Fixpoint index (f : string) (l : list string) : nat :=
  match l with [] => 0 | g :: l => if String.eqb f g then 0 else S (index f l) end%nat.
Lemma index_inj f g l : index f l = index g l -> (index f l < length l)%nat -> f = g.
Proof.
  induction l as [|x l IH]; cbn; [lia|]. destruct (String.eqb_spec f x), (String.eqb_spec g x); subst; try congruence.
  intros E H. apply IH; lia.
Qed.
Lemma index_in f l : (index f l < length l)%nat -> In f l.
Proof.
  induction l as [|x l IH]; cbn [index length In]; [intros; lia|]. destruct (String.eqb_spec f x); [left; congruence|].
  intros H. right. apply IH. lia.
Qed.
Lemma in_index f l : In f l -> (index f l < length l)%nat.
Proof.
  induction l as [|x l IH]; cbn [index length In]; [tauto|]. intros [->|H]; [rewrite String.eqb_refl; lia|].
  destruct (String.eqb f x); [lia|]. apply IH in H. lia.
Qed.
Definition mem (f : string) (l : list string) : bool := existsb (String.eqb f) l.
Lemma mem_in f l : mem f l = true <-> In f l.
Proof.
  unfold mem. rewrite existsb_exists. split; [intros (x & H & E); apply String.eqb_eq in E; now subst|].
  intros H. exists f. split; [exact H|apply String.eqb_refl].
Qed.

Fixpoint vars (e : expr) : list string :=
  match e with
  | ENum _ => []
  | EMacro m | EDefined m => [m]
  | ENot a => vars a
  | EAnd a b | EOr a b | EEq a b | ELt a b | ELe a b => vars a ++ vars b
  end.
Fixpoint tests (k : code) : list string :=
  match k with
  | Done => []
  | Text _ _ k | Define _ _ k | Include _ k | System _ k | Once k | Stop _ k => tests k
  | If c t e k => vars c ++ tests t ++ tests e ++ tests k
  end.
Fixpoint defines (k : code) : list string :=
  match k with
  | Done => []
  | Define m _ k => m :: defines k
  | Text _ _ k | Include _ k | System _ k | Once k | Stop _ k => defines k
  | If c t e k => defines t ++ defines e ++ defines k
  end.

(** The includes that are not inside a conditional. *)
Fixpoint tops (k : code) : list string :=
  match k with
  | Done | Stop _ _ => []
  | Include g k => g :: tops k
  | Text _ _ k | Define _ _ k | System _ k | Once k | If _ _ _ k => tops k
  end.
(** How a file protects itself against a second inclusion. *)
Inductive shape := Guard (g : string) (k : code) | ByOnce (k : code) | Bare.
Definition shape_of (k : code) : shape :=
  match k with
  | Once k => ByOnce k
  | If (ENot (EDefined g)) (Define g' (ENum 1) k) Done Done => if String.eqb g g' then Guard g k else Bare
  | _ => Bare
  end.

Section Gen.
Variable B : predefined.
Variable files : string -> option code.
Variable order : list string.
Definition rank f := index f order.
Definition code_of f : code := match files f with Some k => k | None => Done end.
Variable tested_list : list string.
Variable owners : list (string * string).
Definition tested m : bool := mem m tested_list.
Definition owner m : option string := option_map snd (find (fun x => String.eqb m (fst x)) owners).
Definition own f m : Prop := tested m = true /\ owner m = Some f.
Variable never : list string.

Definition entered (s : pp) (f : string) : bool :=
  match shape_of (code_of f) with
  | Guard g _ => match assoc g (macros s) with Some _ => true | None => false end
  | ByOnce _ => mem f (onces s)
  | Bare => false
  end.
Definition items_in f (s : pp) : list item := provided f s.

Definition body (f : string) : code := match shape_of (code_of f) with Guard _ k | ByOnce k => k | Bare => Done end.
(** Files that have certainly been included once g has been. *)
Fixpoint reach (n : nat) (g : string) : list string :=
  match n with O => [g] | S n => g :: flat_map (reach n) (tops (body g)) end.

(** The check. *)
Section Check.
Variable h : string.
Definition var_ok (D : list string) (m : string) : bool :=
  tested m && match owner m with
              | None => true
              | Some o => String.eqb o h || (rank o <? rank h)%nat && (mem o D || mem m never)
              end.
Fixpoint harmless (k : code) : bool :=
  match k with
  | Done => true
  | Text _ _ k | System _ k => harmless k
  | Define m _ k => negb (tested m) && harmless k
  | _ => false
  end.
Fixpoint safe (D : list string) (k : code) : option bool :=
  match k with
  | Done => Some true
  | Text _ _ k | System _ k => safe D k
  | Define m v k =>
      if negb (tested m) || (match owner m with Some o => String.eqb o h | None => false end && forallb (var_ok D) (vars v))
      then safe D k else None
  | Include g k => if (rank g <? rank h)%nat then safe (reach 4 g ++ D) k else None
  | Once _ => None
  | Stop _ _ => Some true
  | If c t e k =>
      if forallb (var_ok D) (vars c)
      then match safe D t, safe D e, safe D k with Some a, Some b, Some d => Some (a && b && d) | _, _, _ => None end
      else if harmless t && harmless e then match safe D k with Some _ => Some false | None => None end else None
  end.
End Check.
Definition check (h : string) : option bool :=
  match shape_of (code_of h) with
  | Guard g k => if tested g && match owner g with Some o => String.eqb o h | None => false end then safe h [] k else None
  | ByOnce k => safe h [] k
  | Bare => None
  end.
Definition clean h : bool := match check h with Some b => b | None => false end.

Hypothesis all_checked : forall h, In h order -> check h <> None.
Hypothesis B_clean : forall m o, owner m = Some o -> B m = None.
Hypothesis has_files : forall h, In h order -> files h <> None.

Notation inc := (include B files).
Definition init : pp := PP [] [] [].
Definition canon (f : string) : res := inc limit f init.
Hypothesis short : (length order < limit)%nat.
Hypothesis nevers : forall m o s, In m never -> owner m = Some o -> canon o = Fine s -> assoc m (macros s) = None.

Definition wf1 (s : pp) (f : string) : Prop :=
  if entered s f
  then exists s0, canon f = Fine s0 /\ (forall m, own f m -> assoc m (macros s) = assoc m (macros s0)) /\
         (clean f = true -> items_in f s = items_in f s0) /\
         (forall g, In g (tops (body f)) -> entered s g = true)
  else (forall m, own f m -> assoc m (macros s) = None) /\ items_in f s = [].
Definition wf (s : pp) (n : nat) : Prop :=
  (forall f, In f order -> (rank f < n)%nat -> wf1 s f) /\
  (forall m, tested m = true -> owner m = None -> assoc m (macros s) = None) /\
  (forall f, mem f (onces s) = true -> exists k, shape_of (code_of f) = ByOnce k).
(** Files of rank n and above are as before. *)
Definition frame (s s' : pp) (n : nat) : Prop :=
  (forall f, In f order -> (n <= rank f)%nat -> entered s' f = entered s f /\ items_in f s' = items_in f s /\
     forall m, own f m -> assoc m (macros s') = assoc m (macros s)) /\
  (forall f, entered s f = true -> entered s' f = true).

Lemma frame_refl s n : frame s s n.
Proof. split; auto. Qed.
Lemma frame_trans a b c n : frame a b n -> frame b c n -> frame a c n.
Proof.
  intros [H1 H2] [K1 K2]. split; [|auto]. intros f Hi Hf. destruct (H1 f Hi Hf) as (A & A2 & A3), (K1 f Hi Hf) as (E & E2 & E3).
  split; [congruence|]. split; [congruence|]. intros m Hm. rewrite (E3 m Hm). auto.
Qed.
Lemma frame_weak a b n n' : frame a b n -> (n <= n')%nat -> frame a b n'.
Proof. intros [H1 H2] L. split; [|auto]. intros f Hi Hf. apply H1; [exact Hi|lia]. Qed.
Lemma wf_weak s n n' : wf s n -> (n' <= n)%nat -> wf s n'.
Proof. intros [H1 H2] L. split; [|auto]. intros f Hi Hf. apply H1; [exact Hi|lia]. Qed.
Lemma wf1_frame s s' n f : frame s s' n -> In f order -> (n <= rank f)%nat -> wf1 s f -> wf1 s' f.
Proof.
  intros [H Mo] Hi L. destruct (H f Hi L) as (A & A2 & A3). unfold wf1. rewrite A.
  destruct (entered s f).
  - intros (s0 & E & H1 & H2 & H3). exists s0. split; [exact E|]. split; [|split; [rewrite A2; auto|auto]].
    intros m Hm. rewrite (A3 m Hm). auto.
  - intros (H1 & H2). split; [|congruence]. intros m Hm. rewrite (A3 m Hm). auto.
Qed.

(** Markers belong to their files. *)
Lemma guard_own h g k : In h order -> shape_of (code_of h) = Guard g k -> own h g.
Proof.
  intros Hh E. specialize (all_checked h Hh). unfold check in all_checked. rewrite E in all_checked.
  destruct (tested g) eqn:T; cbn in all_checked; [|congruence]. destruct (owner g) as [o|] eqn:O; [|congruence].
  destruct (String.eqb_spec o h); [|congruence]. subst. split; auto.
Qed.
Lemma in_order f : (rank f < length order)%nat -> In f order.
Proof. apply index_in. Qed.
Lemma rank_in f : In f order -> (rank f < length order)%nat.
Proof. apply in_index. Qed.

(** Single steps of file h. *)
Lemma items_add f s i : items_in f (add_item s i) = items_in f s ++ (if from_file f i then [i] else []).
Proof. unfold items_in, provided, add_item; cbn. rewrite filter_app. cbn. destruct (from_file f i); reflexivity. Qed.
Lemma step_item h s i n : (forall f, from_file f i = true -> f = h) -> rank h = n ->
  (wf s n -> wf (add_item s i) n) /\ frame s (add_item s i) (S n).
Proof.
  intros Hi Hn.
  assert (Hs : forall f, f <> h -> items_in f (add_item s i) = items_in f s).
  { intros f Hf. rewrite items_add. destruct (from_file f i) eqn:E; [apply Hi in E; contradiction|apply app_nil_r]. }
  split.
  - intros [H1 H2]. split; [|exact H2]. intros f Hin Hf. specialize (H1 f Hin Hf).
    assert (f <> h) by (intros ->; lia). unfold wf1 in *. rewrite (Hs f H). exact H1.
  - split; [|auto]. intros f Hin Hf. assert (f <> h) by (intros ->; lia). rewrite (Hs f H). auto.
Qed.
Lemma assoc_add m m' v s : assoc m (macros (add_macro s m' v)) = if String.eqb m m' then Some v else assoc m (macros s).
Proof. reflexivity. Qed.
Lemma entered_add s m v f : entered s f = true -> entered (add_macro s m v) f = true.
Proof.
  unfold entered. destruct (shape_of (code_of f)); auto. rewrite assoc_add. destruct (String.eqb g m); auto.
Qed.
(** Bare files are not entered; files outside the order have no markers that matter. *)
Lemma entered_same s m v f : In f order -> (forall k g, shape_of (code_of f) = Guard g k -> g <> m) ->
  entered (add_macro s m v) f = entered s f.
Proof.
  intros Hf Hg. unfold entered. destruct (shape_of (code_of f)) eqn:E; auto. rewrite assoc_add.
  destruct (String.eqb_spec g m); [|reflexivity]. exfalso. eapply Hg; eauto.
Qed.
Lemma tested_guard m f k g : In f order -> tested m = false \/ (exists o, owner m = Some o /\ o <> f) ->
  shape_of (code_of f) = Guard g k -> g <> m.
Proof. intros Hf Hm E ->. destruct (guard_own _ _ _ Hf E) as [T O]. destruct Hm as [Hm|(o & Ho & Hn)]; congruence. Qed.
Lemma step_macro h s m v n : rank h = n -> tested m = false \/ owner m = Some h ->
  (wf s n -> wf (add_macro s m v) n) /\ frame s (add_macro s m v) (S n).
Proof.
  intros Hn Hm.
  assert (Hd : forall f, f <> h -> tested m = false \/ exists o, owner m = Some o /\ o <> f).
  { intros f Hf. destruct Hm as [|]; [auto|]. right. exists h. auto. }
  assert (Ha : forall f m', f <> h -> own f m' -> assoc m' (macros (add_macro s m v)) = assoc m' (macros s)).
  { intros f m' Hf [T O]. rewrite assoc_add. destruct (String.eqb_spec m' m); [|reflexivity]. subst.
    destruct (Hd f Hf) as [?|(o & ? & ?)]; congruence. }
  split.
  - intros [H1 [H2 H3]]. split; [|split; [|exact H3]].
    + intros f Hin Hf. specialize (H1 f Hin Hf). assert (Hne : f <> h) by (intros ->; lia). unfold wf1 in *.
      rewrite entered_same; [|exact Hin|intros; eapply tested_guard; eauto]. destruct (entered s f).
      * destruct H1 as (s0 & E & A & I & J). exists s0. split; [exact E|]. split; [|split; [exact I|]].
        -- intros m' Hm'. rewrite (Ha f) by auto. auto.
        -- intros g Hg. apply entered_add. auto.
      * destruct H1 as (A & I). split; [|exact I]. intros m' Hm'. rewrite (Ha f) by auto. auto.
    + intros m' T O. rewrite assoc_add. destruct (String.eqb_spec m' m); [|auto]. subst. destruct Hm; congruence.
  - split.
    + intros f Hin Hf. assert (Hne : f <> h) by (intros ->; lia). split; [|split; [reflexivity|eauto]].
      apply entered_same; [exact Hin|]. intros; eapply tested_guard; eauto.
    + intros f. apply entered_add.
Qed.
Lemma entered_once s h f : entered s f = true -> entered (add_once s h) f = true.
Proof.
  unfold entered. destruct (shape_of (code_of f)); auto. unfold mem; cbn [existsb add_once onces].
  intros ->. apply orb_true_r.
Qed.
Lemma step_once h s n kb : rank h = n -> shape_of (code_of h) = ByOnce kb ->
  (wf s n -> wf (add_once s h) n) /\ frame s (add_once s h) (S n).
Proof.
  intros Hn Hk.
  assert (He : forall f, f <> h -> entered (add_once s h) f = entered s f).
  { intros f Hf. unfold entered. destruct (shape_of (code_of f)); auto. cbn. apply String.eqb_neq in Hf. now rewrite Hf. }
  split.
  - intros [H1 [H2 H3]]. split; [|split; [exact H2|]].
    2:{ intros f. unfold mem; cbn [existsb add_once onces]. destruct (String.eqb_spec f h) as [->|]; [eauto|]. apply H3. }
    intros f Hin Hf. specialize (H1 f Hin Hf).
    assert (Hne : f <> h) by (intros ->; lia). unfold wf1 in *. rewrite He by auto. destruct (entered s f); [|exact H1].
    destruct H1 as (s0 & E & A & I & J). exists s0. split; [exact E|]. split; [exact A|]. split; [exact I|].
    intros g Hg. apply entered_once. auto.
  - split.
    + intros f Hin Hf. assert (Hne : f <> h) by (intros ->; lia). rewrite He by auto. auto.
    + intros f. apply entered_once.
Qed.

(** Conditions. *)
Lemma eval_agree s s0 e : (forall m, In m (vars e) -> assoc m (macros s) = assoc m (macros s0)) -> eval B s e = eval B s0 e.
Proof.
  assert (Hv : forall m, assoc m (macros s) = assoc m (macros s0) -> value B s m = value B s0 m)
    by (intros m Hm; unfold value; now rewrite Hm).
  induction e; cbn [vars eval]; intros H; auto.
  - rewrite Hv by (apply H; now left). reflexivity.
  - rewrite Hv by (apply H; now left). reflexivity.
  - rewrite IHe by auto. reflexivity.
  - rewrite IHe1, IHe2 by (intros; apply H, in_app_iff; auto). reflexivity.
  - rewrite IHe1, IHe2 by (intros; apply H, in_app_iff; auto). reflexivity.
  - rewrite IHe1, IHe2 by (intros; apply H, in_app_iff; auto). reflexivity.
  - rewrite IHe1, IHe2 by (intros; apply H, in_app_iff; auto). reflexivity.
  - rewrite IHe1, IHe2 by (intros; apply H, in_app_iff; auto). reflexivity.
Qed.

Lemma safe_tops h k : forall D b, safe h D k = Some b -> forall g, In g (tops k) -> (rank g < rank h)%nat.
Proof.
  induction k; cbn [safe tops]; intros D b Hs g Hg; try contradiction; eauto; try discriminate.
  - destruct (_ || _)%bool; [eauto|discriminate].
  - destruct (rank f <? rank h)%nat eqn:L; [|discriminate]. destruct Hg as [<-|Hg]; [now apply Nat.ltb_lt|eauto].
  - destruct (forallb _ _); [|destruct (_ && _)%bool; [|discriminate]].
    + destruct (safe h D k1), (safe h D k2), (safe h D k3) eqn:E; try discriminate. eauto.
    + destruct (safe h D k3) eqn:E; [eauto|discriminate].
Qed.
Lemma body_safe g : In g order -> exists fl, safe g [] (body g) = Some fl /\ clean g = fl.
Proof.
  intros Hg. pose proof (all_checked g Hg) as Hch. unfold clean. unfold check, body in *.
  destruct (shape_of (code_of g)) as [gd kb|kb|] eqn:Es; [| |congruence].
  - destruct (tested gd && _)%bool; [|congruence]. destruct (safe g [] kb); [eauto|congruence].
  - destruct (safe g [] kb); [eauto|congruence].
Qed.
Lemma reach_entered s n : wf s n -> forall k g, In g order -> (rank g < n)%nat -> entered s g = true ->
  forall x, In x (reach k g) -> entered s x = true.
Proof.
  intros W. induction k as [|k IH]; intros g Hg L E x Hx; cbn [reach] in Hx.
  - destruct Hx as [<-|[]]. exact E.
  - destruct Hx as [<-|Hx]; [exact E|]. apply in_flat_map in Hx as (y & Hy & Hx).
    destruct (body_safe g Hg) as (fl & Hs & _). pose proof (safe_tops _ _ _ _ Hs y Hy) as Ly.
    pose proof (proj1 W g Hg L) as Wg. unfold wf1 in Wg. rewrite E in Wg. destruct Wg as (_ & _ & _ & _ & T).
    eapply IH; [| |apply T; exact Hy|exact Hx]; [|lia]. apply in_order. pose proof (rank_in g Hg). lia.
Qed.

Section File.
Variable h : string.
Hypothesis h_in : In h order.
Notation n := (rank h).
Record rel (D : list string) (s s0 : pp) : Prop := {
  r_wf : wf s n; r_wf0 : wf s0 n;
  r_D : forall g, In g D -> In g order -> entered s g = true /\ entered s0 g = true;
  r_own : forall m, own h m -> assoc m (macros s) = assoc m (macros s0)
}.
Lemma var_agree D s s0 m : rel D s s0 -> var_ok h D m = true -> assoc m (macros s) = assoc m (macros s0).
Proof.
  intros R Hv. unfold var_ok in Hv. apply andb_true_iff in Hv as [T Hv]. destruct (owner m) as [o|] eqn:O.
  2:{ rewrite (proj1 (proj2 (r_wf _ _ _ R)) m T O), (proj1 (proj2 (r_wf0 _ _ _ R)) m T O). reflexivity. }
  apply orb_true_iff in Hv as [E|Hv].
  { apply String.eqb_eq in E. subst. apply (r_own _ _ _ R). split; auto. }
  apply andb_true_iff in Hv as [L Hv]. apply Nat.ltb_lt in L.
  assert (Ho : In o order) by (apply in_order; pose proof (rank_in h h_in); lia).
  pose proof (proj1 (r_wf _ _ _ R) o Ho L) as W. pose proof (proj1 (r_wf0 _ _ _ R) o Ho L) as W0.
  assert (Hown : own o m) by (split; auto).
  apply orb_true_iff in Hv as [Hv|Hv]; apply mem_in in Hv.
  - destruct (r_D _ _ _ R o Hv Ho) as [E E0]. unfold wf1 in *. rewrite E in W. rewrite E0 in W0.
    destruct W as (s1 & C1 & A1 & _), W0 as (s2 & C2 & A2 & _). rewrite (A1 m Hown), (A2 m Hown). congruence.
  - assert (Hnone : forall s, wf1 s o -> assoc m (macros s) = None).
    { clear - Hv O Hown nevers. intros s W. unfold wf1 in W. destruct (entered s o).
      - destruct W as (s1 & C1 & A1 & _). rewrite (A1 m Hown). eapply nevers; eauto.
      - destruct W as (A & _). auto. }
    rewrite (Hnone s W), (Hnone s0 W0). reflexivity.
Qed.
Lemma vars_agree D s s0 e : rel D s s0 -> forallb (var_ok h D) (vars e) = true -> eval B s e = eval B s0 e.
Proof.
  intros R Hv. apply eval_agree. intros m Hm. rewrite forallb_forall in Hv. eapply var_agree; eauto.
Qed.

Hypothesis INC : forall d g s n', In g order -> (rank g < n)%nat -> (rank g < n')%nat -> (rank g < d)%nat -> wf s n' ->
  (n' <= length order)%nat ->
  match inc d g s with
  | Fine s' => wf s' n' /\ entered s' g = true /\ frame s s' (S (rank g))
  | Rejected x y => canon g = Rejected x y /\ canon x = Rejected x y
  | _ => False
  end.
Definition outcome_rel (tl : list string) (fl : bool) (s s0 : pp) (r r0 : res) : Prop :=
  match r, r0 with
  | Fine s', Fine s0' =>
      wf s' n /\ wf s0' n /\ (forall m, own h m -> assoc m (macros s') = assoc m (macros s0')) /\
      frame s s' (S n) /\ frame s0 s0' (S n) /\
      (forall g, In g tl -> entered s' g = true) /\
      exists l l0, items_in h s' = items_in h s ++ l /\ items_in h s0' = items_in h s0 ++ l0 /\ (fl = true -> l = l0)
  | Rejected x y, Rejected x0 y0 => x = x0 /\ y = y0 /\ (x = h \/ canon x = Rejected x y)
  | _, _ => False
  end.
Lemma rel_after tl fl D s s0 s1 s01 : rel D s s0 -> outcome_rel tl fl s s0 (Fine s1) (Fine s01) -> rel D s1 s01.
Proof.
  intros R (W & W0 & A & F & F0 & _). split; auto.
  intros g Hg Ho. destruct (r_D _ _ _ R g Hg Ho) as [E E0]. split; [now apply (proj2 F)|now apply (proj2 F0)].
Qed.
Lemma rel_step tl tl' fl fl' s s0 s1 s01 r r0 : outcome_rel tl fl s s0 (Fine s1) (Fine s01) -> outcome_rel tl' fl' s1 s01 r r0 ->
  outcome_rel (tl ++ tl') (fl && fl') s s0 r r0.
Proof.
  intros (W & W0 & A & F & F0 & T & l & l0 & I & I0 & E). unfold outcome_rel at 1. destruct r as [s'| | |]; [|auto|auto|auto].
  destruct r0 as [s0'| | |]; try tauto.
  intros (W' & W0' & A' & F' & F0' & T' & k & k0 & J & J0 & E').
  unfold outcome_rel. split; [auto|]. split; [auto|]. split; [auto|].
  split; [eapply frame_trans; eauto|]. split; [eapply frame_trans; eauto|].
  split. { intros g Hg. apply in_app_iff in Hg as [Hg|Hg]; [apply (proj2 F'); auto|auto]. }
  exists (l ++ k), (l0 ++ k0). rewrite J, J0, I, I0, !app_assoc. split; [auto|]. split; [auto|].
  intros Hf. apply andb_true_iff in Hf as [H1 H2]. rewrite (E H1), (E' H2). reflexivity.
Qed.
Lemma weaken tl tl' s s0 r r0 fl : (forall g, In g tl' -> In g tl) ->
  outcome_rel tl fl s s0 r r0 -> outcome_rel tl' false s s0 r r0.
Proof.
  unfold outcome_rel. intros Ht. destruct r, r0; auto. intros (W & W0 & A & F & F0 & T & l & l0 & I & I0 & E).
  split; [auto|]. split; [auto|]. split; [auto|]. split; [auto|]. split; [auto|]. split; [auto|]. exists l, l0. split; [auto|]. split; [auto|].
  discriminate.
Qed.
Lemma no_tops tl fl s s0 r r0 : outcome_rel tl fl s s0 r r0 -> outcome_rel [] fl s s0 r r0.
Proof.
  unfold outcome_rel. destruct r, r0; auto. intros (W & W0 & A & F & F0 & T & l & l0 & I & I0 & E).
  split; [auto|]. split; [auto|]. split; [auto|]. split; [auto|]. split; [auto|]. split; [intros ? []|].
  exists l, l0. split; [auto|]. split; auto.
Qed.

Lemma one_item D s s0 i : rel D s s0 -> (forall f, from_file f i = true -> f = h) -> from_file h i = true ->
  outcome_rel [] true s s0 (Fine (add_item s i)) (Fine (add_item s0 i)).
Proof.
  intros R Hi Hh. destruct (step_item h s i n Hi eq_refl) as [A F], (step_item h s0 i n Hi eq_refl) as [A0 F0].
  split; [apply A, R|]. split; [apply A0, R|]. split; [apply R|]. split; [exact F|]. split; [exact F0|]. split; [intros ? []|].
  exists [i], [i]. rewrite !items_add, Hh. auto.
Qed.
Lemma one_macro D s s0 m v v0 : rel D s s0 -> tested m = false \/ (owner m = Some h /\ v = v0) ->
  outcome_rel [] true s s0 (Fine (add_macro s m v)) (Fine (add_macro s0 m v0)).
Proof.
  intros R Hm. assert (Hm' : tested m = false \/ owner m = Some h) by tauto.
  destruct (step_macro h s m v n eq_refl Hm') as [A F], (step_macro h s0 m v0 n eq_refl Hm') as [A0 F0].
  split; [apply A, R|]. split; [apply A0, R|]. split.
  { intros m' Hw. rewrite !assoc_add. destruct (String.eqb_spec m' m); [|now apply R]. subst.
    destruct Hw as [T O]. destruct Hm as [|[_ ->]]; [congruence|reflexivity]. }
  split; [exact F|]. split; [exact F0|]. split; [intros ? []|].
  exists [], []. unfold items_in, provided; cbn. rewrite !app_nil_r. auto.
Qed.

(** The two branches of a harmless conditional, whichever is taken on either side. *)
Lemma harmless_ok d k : harmless k = true -> forall s, wf s n ->
  exists s', process B (inc d) h k s = Fine s' /\ wf s' n /\ frame s s' (S n) /\
    (forall m, tested m = true -> assoc m (macros s') = assoc m (macros s)) /\
    exists l, items_in h s' = items_in h s ++ l.
Proof.
  induction k; cbn [harmless process]; intros Hk s W; try discriminate.
  - exists s. split; [reflexivity|]. split; [exact W|]. split; [apply frame_refl|]. split; [auto|]. exists [].
    now rewrite app_nil_r.
  - destruct (step_item h s (Lines h first last) n) as [A F]; [intros f E; now apply String.eqb_eq in E|reflexivity|].
    destruct (IHk Hk _ (A W)) as (s' & E & W' & F' & M & l & I). exists s'. split; [exact E|]. split; [exact W'|].
    split; [eapply frame_trans; eauto|]. split; [exact M|]. rewrite I, items_add, <- app_assoc. eauto.
  - apply andb_true_iff in Hk as [T Hk]. apply negb_true_iff in T.
    destruct (step_macro h s m (eval B s v) n eq_refl (or_introl T)) as [A F].
    destruct (IHk Hk _ (A W)) as (s' & E & W' & F' & M & l & I). exists s'. split; [exact E|]. split; [exact W'|].
    split; [eapply frame_trans; eauto|]. split; [|exists l; exact I].
    intros m' T'. rewrite (M m' T'), assoc_add. destruct (String.eqb_spec m' m); congruence.
  - destruct (step_item h s (Sys h f) n) as [A F]; [intros g E; now apply String.eqb_eq in E|reflexivity|].
    destruct (IHk Hk _ (A W)) as (s' & E & W' & F' & M & l & I). exists s'. split; [exact E|]. split; [exact W'|].
    split; [eapply frame_trans; eauto|]. split; [exact M|]. rewrite I, items_add, <- app_assoc. eauto.
Qed.

Variable d d0 : nat.
Hypothesis dn : (n <= d)%nat.
Hypothesis dn0 : (n <= d0)%nat.
Lemma process_rel k : forall D fl s s0, safe h D k = Some fl -> rel D s s0 ->
  outcome_rel (tops k) fl s s0 (process B (inc d) h k s) (process B (inc d0) h k s0).
Proof.
  induction k as [|a b k IH|m v k IH|g k IH|f k IH|k IH|ln k IH|c t IHt e IHe k IH];
    intros D fl s s0 Hs R; cbn [safe process tops] in *.
  - injection Hs as <-. split; [apply R|]. split; [apply R|]. split; [apply R|]. split; [apply frame_refl|].
    split; [apply frame_refl|]. split; [intros ? []|]. exists [], []. rewrite !app_nil_r. auto.
  - assert (O : outcome_rel [] true s s0 (Fine (add_item s (Lines h a b))) (Fine (add_item s0 (Lines h a b)))).
    { eapply one_item; [exact R|intros f E; now apply String.eqb_eq in E|apply String.eqb_refl]. }
    change fl with (true && fl)%bool. eapply (rel_step []); [exact O|]. eapply IH; [exact Hs|]. eapply rel_after; eauto.
  - destruct (negb (tested m) || _) eqn:E in Hs; [|discriminate].
    assert (O : outcome_rel [] true s s0 (Fine (add_macro s m (eval B s v))) (Fine (add_macro s0 m (eval B s0 v)))).
    { eapply one_macro; [exact R|]. apply orb_true_iff in E as [E|E]; [left; now apply negb_true_iff|].
      apply andb_true_iff in E as [E Hv]. right. split; [|eapply vars_agree; eauto].
      destruct (owner m) as [o|]; [|discriminate]. apply String.eqb_eq in E. congruence. }
    change fl with (true && fl)%bool. eapply (rel_step []); [exact O|]. eapply IH; [exact Hs|]. eapply rel_after; eauto.
  - destruct (rank g <? n)%nat eqn:L in Hs; [|discriminate]. apply Nat.ltb_lt in L.
    assert (Hg : In g order) by (apply in_order; pose proof (rank_in h h_in); lia).
    pose proof (INC d g s n Hg L L ltac:(lia) (r_wf _ _ _ R) ltac:(pose proof (rank_in h h_in); lia)) as I.
    pose proof (INC d0 g s0 n Hg L L ltac:(lia) (r_wf0 _ _ _ R) ltac:(pose proof (rank_in h h_in); lia)) as I0.
    assert (Hcan : forall s', wf s' n -> entered s' g = true -> exists s2, canon g = Fine s2).
    { clear - Hg L. intros s' [W _] E. specialize (W g Hg L). unfold wf1 in W. rewrite E in W.
      destruct W as (s2 & C & _). eauto. }
    destruct (inc d g s) as [s1|x y| |], (inc d0 g s0) as [s01|x0 y0| |]; try tauto.
    + destruct I as (W & E & F), I0 as (W0 & E0 & F0).
      assert (Own : forall m, own h m -> assoc m (macros s1) = assoc m (macros s01)).
      { intros m Hm. rewrite (proj2 (proj2 (proj1 F h h_in L)) m Hm), (proj2 (proj2 (proj1 F0 h h_in L)) m Hm). now apply R. }
      assert (O : outcome_rel [g] true s s0 (Fine s1) (Fine s01)).
      { split; [exact W|]. split; [exact W0|]. split; [exact Own|].
        split; [eapply frame_weak; [exact F|lia]|]. split; [eapply frame_weak; [exact F0|lia]|].
        split; [intros x [<-|[]]; exact E|].
        exists [], []. rewrite !app_nil_r. rewrite (proj1 (proj2 (proj1 F h h_in L))), (proj1 (proj2 (proj1 F0 h h_in L))). auto. }
      change fl with (true && fl)%bool. change (g :: tops k) with ([g] ++ tops k). eapply rel_step; [exact O|].
      eapply IH; [exact Hs|]. pose proof (rel_after [g] true D _ _ _ _ R O) as R1. split; [apply R1|apply R1| |apply R1].
      intros g' Hg' Ho. apply in_app_iff in Hg' as [Hg'|Hg']; [|now apply (r_D _ _ _ R1)].
      split; [exact (reach_entered _ _ W _ g Hg L E _ Hg')|exact (reach_entered _ _ W0 _ g Hg L E0 _ Hg')].
    + destruct I as (W & E & F), I0 as [I0 _]. destruct (Hcan s1 W E). congruence.
    + destruct I0 as (W & E & F), I as [I _]. destruct (Hcan s01 W E). congruence.
    + destruct I as [I Ix], I0 as [I0 _]. rewrite I in I0. injection I0 as <- <-. split; [reflexivity|]. split; [reflexivity|]. right. exact Ix.
  - assert (O : outcome_rel [] true s s0 (Fine (add_item s (Sys h f))) (Fine (add_item s0 (Sys h f)))).
    { eapply one_item; [exact R|intros g E; now apply String.eqb_eq in E|apply String.eqb_refl]. }
    change fl with (true && fl)%bool. eapply (rel_step []); [exact O|]. eapply IH; [exact Hs|]. eapply rel_after; eauto.
  - discriminate.
  - injection Hs as <-. split; [reflexivity|]. split; [reflexivity|]. now left.
  - destruct (forallb (var_ok h D) (vars c)) eqn:V.
    + destruct (safe h D t) as [a|] eqn:St; [|discriminate]. destruct (safe h D e) as [b|] eqn:Se; [|discriminate].
      destruct (safe h D k) as [x|] eqn:Sk; [|discriminate]. injection Hs as <-.
      rewrite (vars_agree D s s0 c R V).
      assert (O : outcome_rel [] (a && b) s s0 (process B (inc d) h (if (eval B s0 c =? 0)%Z then e else t) s)
                    (process B (inc d0) h (if (eval B s0 c =? 0)%Z then e else t) s0)).
      { assert (Hw : forall q tl r r0, outcome_rel tl q s s0 r r0 -> (a && b = true -> q = true)%bool -> outcome_rel [] (a && b) s s0 r r0).
        { clear. intros q tl r r0 H Hq. destruct (a && b)%bool; [rewrite (Hq eq_refl) in H; eapply no_tops; exact H|].
          eapply weaken; [|exact H]. intros ? []. }
        destruct (eval B s0 c =? 0)%Z.
        - eapply (Hw b); [eapply IHe; eauto|destruct a, b; auto].
        - eapply (Hw a); [eapply IHt; eauto|destruct a, b; auto]. }
      destruct (process B (inc d) h _ s) as [s1|x1 y1| |], (process B (inc d0) h _ s0) as [s01|x2 y2| |]; try (cbn in O; tauto); [|exact O].
      eapply (rel_step []); [exact O|]. eapply IH; [exact Sk|]. eapply rel_after; eauto.
    + destruct (harmless t && harmless e)%bool eqn:Hh; [|discriminate]. apply andb_true_iff in Hh as [Ht He].
      destruct (safe h D k) as [x|] eqn:Sk; [|discriminate]. injection Hs as <-.
      assert (Hb : forall z, harmless (if (z =? 0)%Z then e else t) = true) by (intros z; destruct (z =? 0)%Z; auto).
      destruct (harmless_ok d _ (Hb (eval B s c)) s (r_wf _ _ _ R)) as (s1 & E1 & W1 & F1 & M1 & l & I1).
      destruct (harmless_ok d0 _ (Hb (eval B s0 c)) s0 (r_wf0 _ _ _ R)) as (s2 & E2 & W2 & F2 & M2 & l2 & I2).
      rewrite E1, E2.
      assert (O : outcome_rel [] false s s0 (Fine s1) (Fine s2)).
      { split; [exact W1|]. split; [exact W2|]. split.
        { intros m Hm. destruct Hm as [T Om]. rewrite (M1 m T), (M2 m T). apply R. split; auto. }
        split; [exact F1|]. split; [exact F2|]. split; [intros ? []|]. exists l, l2. split; [exact I1|]. split; [exact I2|]. discriminate. }
      change false with (false && x)%bool. eapply (rel_step []); [exact O|]. eapply IH; [exact Sk|]. eapply rel_after; eauto.
Qed.
End File.

Lemma shape_guard k g kb : shape_of k = Guard g kb -> k = If (ENot (EDefined g)) (Define g (ENum 1) kb) Done Done.
Proof.
  destruct k; try discriminate. cbn [shape_of]. destruct c; try discriminate. destruct c; try discriminate.
  destruct k1; try discriminate. destruct v; try discriminate. destruct z; try discriminate. destruct p; try discriminate.
  destruct k2; try discriminate. destruct k3; try discriminate. destruct (String.eqb_spec m m0); [|discriminate].
  intros H. injection H as <- <-. congruence.
Qed.
Lemma shape_once k kb : shape_of k = ByOnce kb -> k = Once kb.
Proof.
  destruct k; try discriminate; cbn [shape_of]; [congruence|]. destruct c; try discriminate. destruct c; try discriminate.
  destruct k1; try discriminate. destruct v; try discriminate. destruct z; try discriminate. destruct p; try discriminate.
  destruct k2; try discriminate. destruct k3; try discriminate. destruct (String.eqb m m0); discriminate.
Qed.
(** What including a file does: nothing the second time, its body after the mark the first time. *)
Definition mark (s : pp) (f : string) : pp :=
  match shape_of (code_of f) with Guard g _ => add_macro s g 1 | ByOnce _ => add_once s f | Bare => s end.
Lemma include_once d f s n : In f order -> wf s n ->
  inc (S d) f s = if entered s f then Fine s else process B (inc d) f (body f) (mark s f).
Proof.
  intros Hf (_ & _ & W). specialize (W f). cbn [include]. pose proof (has_files f Hf) as Hk.
  assert (Hc : files f = Some (code_of f)) by (unfold code_of; destruct (files f); congruence).
  unfold entered, body, mark, mem in *. rewrite Hc. pose proof (all_checked f Hf) as Hch. unfold check in Hch.
  destruct (shape_of (code_of f)) as [g kb|kb|] eqn:Es; [| |congruence].
  - destruct (existsb (String.eqb f) (onces s)) eqn:Eo; [destruct (W eq_refl); discriminate|].
    rewrite (shape_guard _ _ _ Es). cbn [process eval]. unfold value.
    destruct (guard_own f g kb Hf Es) as [_ O]. rewrite (B_clean g f O).
    destruct (assoc g (macros s)); [reflexivity|]. change (truth (truth false =? 0)%Z =? 0)%Z with false. cbv iota.
    cbn [process eval]. destruct (process B (inc d) f kb (add_macro s g 1)); reflexivity.
  - rewrite (shape_once _ _ Es). reflexivity.
Qed.
Lemma mark_ok s f n : In f order -> (rank f = n)%nat ->
  (wf s n -> wf (mark s f) n) /\ frame s (mark s f) (S n) /\ entered (mark s f) f = true /\
  items_in f (mark s f) = items_in f s /\
  (forall s0, (forall m, own f m -> assoc m (macros s) = assoc m (macros s0)) ->
     forall m, own f m -> assoc m (macros (mark s f)) = assoc m (macros (mark s0 f))).
Proof.
  intros Hf Hn. pose proof (all_checked f Hf) as Hch. unfold check in Hch.
  unfold mark, entered. destruct (shape_of (code_of f)) as [g kb|kb|] eqn:Es; [| |congruence].
  - destruct (guard_own f g kb Hf Es) as [T O].
    destruct (step_macro f s g 1 n Hn (or_intror O)) as [A F]. split; [exact A|]. split; [exact F|].
    split; [rewrite assoc_add, String.eqb_refl; reflexivity|]. split; [reflexivity|].
    intros s0 H m Hm. rewrite !assoc_add. destruct (String.eqb m g); auto.
  - destruct (step_once f s n kb Hn Es) as [A F]. split; [exact A|]. split; [exact F|].
    split; [unfold mem; cbn; rewrite String.eqb_refl; reflexivity|]. split; [reflexivity|]. auto.
Qed.
Lemma wf_init n : wf init n.
Proof.
  split; [|split; [reflexivity|discriminate]]. intros f Hf _. unfold wf1.
  assert (entered init f = false) as -> by (unfold entered; destruct (shape_of (code_of f)); reflexivity).
  split; reflexivity.
Qed.
Lemma init_new f : entered init f = false.
Proof. unfold entered. destruct (shape_of (code_of f)); reflexivity. Qed.

Lemma inc_ok r : forall d g s n', rank g = r -> In g order -> (rank g < n')%nat -> (n' <= length order)%nat -> (rank g < d)%nat -> wf s n' ->
  match inc d g s with
  | Fine s' => wf s' n' /\ entered s' g = true /\ frame s s' (S (rank g))
  | Rejected x y => canon g = Rejected x y /\ canon x = Rejected x y
  | _ => False
  end.
Proof.
  induction r as [r IH] using lt_wf_ind. intros d g s n' Hr Hg Hn Hlen Hd W.
  destruct d as [|d]; [lia|]. rewrite (include_once d g s n' Hg W).
  destruct (entered s g) eqn:E; [split; [exact W|]; split; [exact E|apply frame_refl]|].
  pose proof (rank_in g Hg) as Hl.
  assert (Hcan : canon g = process B (inc 255) g (body g) (mark init g)).
  { unfold canon. change limit with (S 255). rewrite (include_once 255 g init 0 Hg (wf_init 0)). now rewrite init_new. }
  pose proof (body_safe g Hg) as Hs.
  destruct Hs as (fl & Hs & Hfl).
  destruct (mark_ok s g (rank g) Hg eq_refl) as (A & F & Em & Im & Om).
  destruct (mark_ok init g (rank g) Hg eq_refl) as (A0 & F0 & Em0 & Im0 & Om0).
  pose proof (proj1 W g Hg Hn) as Wg. unfold wf1 in Wg. rewrite E in Wg. destruct Wg as [Wm Wi].
  assert (R : rel g [] (mark s g) (mark init g)).
  { split.
    - apply A. eapply wf_weak; [exact W|lia].
    - apply A0, wf_init.
    - intros x [].
    - apply Om. intros m Hm. rewrite (Wm m Hm). reflexivity. }
  assert (INC : forall d g' s n', In g' order -> (rank g' < rank g)%nat -> (rank g' < n')%nat -> (rank g' < d)%nat -> wf s n' ->
    (n' <= length order)%nat ->
    match inc d g' s with
    | Fine s' => wf s' n' /\ entered s' g' = true /\ frame s s' (S (rank g'))
    | Rejected x y => canon g' = Rejected x y /\ canon x = Rejected x y
    | _ => False
    end).
  { intros d' g' s' n'' H1 H2 H3 H4 H5 H6. apply (IH (rank g')); auto. lia. }
  pose proof (process_rel g Hg INC d 255 ltac:(lia) ltac:(unfold limit in short; lia) (body g) [] fl _ _ Hs R) as P.
  destruct (process B (inc d) g (body g) (mark s g)) as [s'|x y| |],
           (process B (inc 255) g (body g) (mark init g)) as [s0'|x0 y0| |]; try (cbn in P; tauto).
  - destruct P as (W1 & W2 & Own & F1 & F2 & Tp & l & l0 & I1 & I2 & El).
    assert (Ft : frame s s' (S (rank g))) by (eapply frame_trans; eauto).
    assert (Ee : entered s' g = true) by (apply (proj2 F1); auto).
    split; [|split; [exact Ee|exact Ft]]. split; [|exact (proj2 W1)].
    intros f Hf Hfn. destruct (Nat.lt_trichotomy (rank f) (rank g)) as [L|[Eq|L]].
    + apply W1; auto.
    + apply index_inj in Eq; [|exact (rank_in f Hf)]. subst f. unfold wf1. rewrite Ee. exists s0'. split; [exact Hcan|].
      split; [exact Own|]. split; [|exact Tp].
      intros Hc. rewrite I1, I2, Im, Im0, Wi. cbn. apply El. congruence.
    + eapply wf1_frame; [exact Ft|exact Hf|lia|]. apply W; auto.
  - destruct P as (<- & <- & [->|Hx]); auto.
Qed.

Lemma includes_ok hs : forall s, (forall h, In h hs -> In h order) -> wf s (length order) ->
  match includes B files hs s with
  | Fine s' => wf s' (length order) /\ (forall h, In h hs -> entered s' h = true) /\
               (forall h, In h order -> entered s h = true -> entered s' h = true)
  | Rejected x y => exists h, In h hs /\ canon h = Rejected x y /\ canon x = Rejected x y
  | _ => False
  end.
Proof.
  induction hs as [|h hs IH]; intros s Hs W; cbn [includes]; [split; [exact W|]; split; [intros ? []|auto]|].
  assert (Hh : In h order) by (apply Hs; now left). pose proof (rank_in h Hh) as Hl.
  pose proof (inc_ok (rank h) limit h s (length order) eq_refl Hh Hl (le_n _) ltac:(lia) W) as I.
  destruct (inc limit h s) as [s1|x y| |]; try tauto.
  - destruct I as (W1 & E1 & F1). specialize (IH s1 (fun x Hx => Hs x (or_intror Hx)) W1).
    destruct (includes B files hs s1) as [s2|x y| |]; try tauto.
    + destruct IH as (W2 & E2 & M2). split; [exact W2|]. split.
      * intros x [<-|Hx]; [apply M2; auto|auto].
      * intros x Hx Ex. apply M2; [exact Hx|]. now apply (proj2 F1).
    + destruct IH as (x' & Hx & C). exists x'. split; [now right|exact C].
  - exists h. split; [now left|exact I].
Qed.
(** The summary used by the theorems. *)
Definition as_alone f (s : pp) : Prop :=
  exists s1, translate B files [f] = Fine s1 /\ (clean f = true -> items_in f s = items_in f s1) /\
    (forall m, own f m -> assoc m (macros s) = assoc m (macros s1)).
Lemma order_independent hs : (forall h, In h hs -> In h order) ->
  match translate B files hs with
  | Fine s => (forall h, In h hs -> as_alone h s) /\
              (forall f, In f order -> items_in f s = [] /\ (forall m, own f m -> assoc m (macros s) = None) \/ as_alone f s)
  | Rejected x y => (exists h, In h hs /\ translate B files [h] = Rejected x y) /\ canon x = Rejected x y
  | _ => False
  end.
Proof.
  intros Hs. unfold as_alone, translate.
  assert (Ht : forall f, In f order -> includes B files [f] (PP [] [] []) = canon f).
  { intros f Hf. cbn [includes]. unfold canon, init. destruct (inc limit f (PP [] [] [])); reflexivity. }
  pose proof (includes_ok hs init Hs (wf_init _)) as H. unfold init in H at 1.
  destruct (includes B files hs (PP [] [] [])) as [s|x y| |]; try tauto.
  - destruct H as (W & E & _).
    assert (Hf : forall f, In f order -> entered s f = true -> exists s1, includes B files [f] (PP [] [] []) = Fine s1 /\
                 (clean f = true -> items_in f s = items_in f s1) /\ (forall m, own f m -> assoc m (macros s) = assoc m (macros s1))).
    { intros f Hf Ef. pose proof (proj1 W f Hf (rank_in f Hf)) as W1. unfold wf1 in W1. rewrite Ef in W1.
      destruct W1 as (s0 & C & M & I & _). exists s0. rewrite (Ht f Hf). auto. }
    split; [intros h Hh; apply Hf; auto|]. intros f Hfo. destruct (entered s f) eqn:Ef; [right; auto|].
    left. pose proof (proj1 W f Hfo (rank_in f Hfo)) as W1. unfold wf1 in W1. rewrite Ef in W1. destruct W1; auto.
  - destruct H as (h & Hh & C & Cx). split; [|exact Cx]. exists h. split; [exact Hh|]. rewrite (Ht h (Hs h Hh)). exact C.
Qed.
End Gen.

(** An #error is reported by a file that contains one. *)
Fixpoint stops (k : code) : bool :=
  match k with
  | Done => false
  | Stop _ _ => true
  | Text _ _ k | Define _ _ k | Include _ k | System _ k | Once k => stops k
  | If _ t e k => stops t || stops e || stops k
  end.
Lemma rejected_from B files d : forall g s x y, include B files d g s = Rejected x y ->
  exists k, files x = Some k /\ stops k = true.
Proof.
  induction d as [|d IH]; intros g s x y; cbn [include]; [discriminate|].
  destruct (existsb (String.eqb g) (onces s)); [discriminate|]. destruct (files g) as [k0|] eqn:Ek; [|discriminate].
  assert (H : forall k s, process B (include B files d) g k s = Rejected x y ->
    x = g /\ stops k = true \/ exists k', files x = Some k' /\ stops k' = true).
  { clear s. induction k as [|a b k IHk|m v k IHk|g' k IHk|f k IHk|k IHk|n k IHk|c t IHt e IHe k IHk]; intros s;
      cbn [process stops]; try (exact (IHk _)); [discriminate| | |].
    - destruct (include B files d g' s) eqn:E; try discriminate; [apply IHk|]. intros H. injection H as -> ->. right. eapply IH; eauto.
    - intros H. injection H as -> ->. auto.
    - destruct (process B (include B files d) g (if (eval B s c =? 0)%Z then e else t) s) eqn:E; try discriminate.
      + intros H. apply IHk in H as [[H1 H2]|H]; [left|right; exact H]. split; [exact H1|]. rewrite H2. apply orb_true_r.
      + intros H. injection H as -> ->. destruct (eval B s c =? 0)%Z; [apply IHe in E|apply IHt in E];
          (destruct E as [[H1 H2]|H]; [left|right; exact H]); (split; [exact H1|]); rewrite H2, ?orb_true_r; reflexivity. }
  intros E. apply H in E as [[-> H2]|E]; [eauto|exact E].
Qed.

Fixpoint mentions (k : code) : list string :=
  match k with
  | Done => []
  | Include g k => g :: mentions k
  | Text _ _ k | Define _ _ k | System _ k | Once k | Stop _ k => mentions k
  | If _ t e k => mentions t ++ mentions e ++ mentions k
  end.
Lemma rejected_within B files (P : string -> Prop) : (forall g k g', P g -> files g = Some k -> In g' (mentions k) -> P g') ->
  forall d g s x y, P g -> include B files d g s = Rejected x y -> P x.
Proof.
  intros Cl. induction d as [|d IH]; intros g s x y Pg; cbn [include]; [discriminate|].
  destruct (existsb (String.eqb g) (onces s)); [discriminate|]. destruct (files g) as [k0|] eqn:Ek; [|discriminate].
  assert (H : forall k s, (forall g', In g' (mentions k) -> P g') -> process B (include B files d) g k s = Rejected x y -> P x).
  { clear s. induction k as [|a b k IHk|m v k IHk|g' k IHk|f k IHk|k IHk|n k IHk|c t IHt e IHe k IHk]; intros s;
      cbn [process mentions]; intros Hm; try (exact (IHk _ Hm)); [discriminate| | |].
    - destruct (include B files d g' s) eqn:E; try discriminate; [apply IHk; intros z Hz; apply Hm; now right|].
      intros H. injection H as -> ->. eapply IH; [|exact E]. apply Hm. now left.
    - intros H. injection H as -> ->. exact Pg.
    - destruct (process B (include B files d) g (if (eval B s c =? 0)%Z then e else t) s) eqn:E; try discriminate.
      + apply IHk. intros z Hz. apply Hm. rewrite !in_app_iff. tauto.
      + intros H. injection H as -> ->. destruct (eval B s c =? 0)%Z; [eapply IHe in E|eapply IHt in E]; eauto;
          intros z Hz; apply Hm; rewrite !in_app_iff; tauto. }
  intros E. eapply H; [|exact E]. intros g' Hg'. eapply Cl; eauto.
Qed.
