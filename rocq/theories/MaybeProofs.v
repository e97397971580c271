(** Refinement of the optional-value specification by the Maybe model, with an exact object ledger. *)
From Verif Require Import Base MaybeModel MaybeSpec.

Section Proofs.
Variable V : Type.
Variable debug : bool.
Notation state := (state V).
Notation vals := (vals V).

Definition own (s : state) (v : var) : option oid :=
  match vars s v with
  | Some c => if initialized c then match storage c with Some (i, _) => Some i | None => None end else None
  | None => None
  end.

Definition agrees (s : state) (m : vals) (v : var) : Prop :=
  match vars s v, m v with
  | None, None => True
  | Some c, Some None => initialized c = false
  | Some c, Some (Some x) => initialized c = true /\ exists i, storage c = Some (i, Some x)
  | _, _ => False
  end.

Record inv (s : state) (m : vals) (lost : list oid) : Prop := {
  i_agree : forall v, agrees s m v;
  i_fresh : forall i, In i (live s) -> i < next s;
  i_nodup : NoDup (live s);
  i_own : forall v i, own s v = Some i -> In i (live s);
  i_inj : forall v u i, own s v = Some i -> own s u = Some i -> v = u;
  i_lnodup : NoDup lost;
  i_lost : forall i, In i lost -> In i (live s);
  i_disj : forall v i, own s v = Some i -> ~ In i lost;
  i_cover : forall i, In i (live s) -> In i lost \/ exists v, own s v = Some i
}.

Lemma own_ext s s' v : vars s v = vars s' v -> own s v = own s' v.
Proof. unfold own. now intros ->. Qed.

Lemma inv_ext s s' m m' lost :
  (forall v, vars s v = vars s' v) -> live s = live s' -> next s = next s' ->
  (forall v, m v = m' v) -> inv s m lost -> inv s' m' lost.
Proof.
  intros Hv Hl Hn Hm [A B C D E F G H K].
  assert (Ho : forall v, own s v = own s' v) by (intros; apply own_ext; auto).
  split; intros.
  - specialize (A v). unfold agrees in *. now rewrite <- Hv, <- Hm.
  - rewrite <- Hl in *. rewrite <- Hn. auto.
  - now rewrite <- Hl.
  - rewrite <- Ho in *. rewrite <- Hl. eauto.
  - rewrite <- Ho in *. eauto.
  - auto.
  - rewrite <- Hl. auto.
  - rewrite <- Ho in *. eauto.
  - rewrite <- Hl in *. destruct (K _ H0) as [?|[v ?]]; auto. right. exists v. now rewrite <- Ho.
Qed.

Lemma vars_set (s : state) v c u : vars (set_var s v c) u = if u =? v then c else vars s u.
Proof. reflexivity. Qed.
Lemma own_set_ne (s : state) v c u : u <> v -> own (set_var s v c) u = own s u.
Proof. intros H. apply own_ext. rewrite vars_set. now apply Nat.eqb_neq in H as ->. Qed.
Lemma put_eq (m : vals) v x : put m v x v = x.
Proof. unfold put. now rewrite Nat.eqb_refl. Qed.
Lemma put_ne (m : vals) v x u : u <> v -> put m v x u = m u.
Proof. intros H. unfold put. now apply Nat.eqb_neq in H as ->. Qed.

(** Replacing v's cell by an uninitialised one: a contained object becomes lost. *)
Definition lost_of (s : state) (v : var) : list oid := match own s v with Some i => [i] | None => [] end.

Lemma inv_empty s m lost v st :
  inv s m lost ->
  inv (set_var s v (Some (Cell false st))) (put m v (Some None)) (lost_of s v ++ lost).
Proof.
  intros [A B C D E F G H K].
  assert (Hov : own (set_var s v (Some (Cell false st))) v = None).
  { unfold own. rewrite vars_set, Nat.eqb_refl. reflexivity. }
  assert (Hlo : forall i, In i (lost_of s v) <-> own s v = Some i).
  { intros i. unfold lost_of. destruct (own s v); cbn; split; intros; try tauto; try congruence.
    - destruct H0; [congruence|tauto].
    - left; congruence. }
  split; cbn [live next set_var].
  - intros u. unfold agrees. rewrite vars_set. unfold put. destruct (Nat.eqb_spec u v); [reflexivity|].
    apply A.
  - auto.
  - auto.
  - intros u i Hu. destruct (Nat.eq_dec u v) as [->|Hne]; [congruence|].
    rewrite own_set_ne in Hu by auto. eauto.
  - intros u u' i Hu Hu'. destruct (Nat.eq_dec u v) as [->|Hne]; [congruence|].
    destruct (Nat.eq_dec u' v) as [->|Hne']; [congruence|].
    rewrite own_set_ne in * by auto. eauto.
  - unfold lost_of. destruct (own s v) eqn:Eo; cbn; auto. constructor; eauto.
  - intros i. rewrite in_app_iff, Hlo. intros [?|?]; eauto.
  - intros u i Hu. destruct (Nat.eq_dec u v) as [->|Hne]; [congruence|].
    rewrite own_set_ne in Hu by auto. rewrite in_app_iff, Hlo. intros [?|?].
    + apply Hne. eauto.
    + eapply H; eauto.
  - intros i Hi. destruct (K _ Hi) as [?|[u Hu]]; [left; rewrite in_app_iff; auto|].
    destruct (Nat.eq_dec u v) as [->|Hne].
    + left. rewrite in_app_iff, Hlo. auto.
    + right. exists u. now rewrite own_set_ne.
Qed.

(** Destroying the T in an initialised Maybe and marking it empty. *)
Lemma inv_destroyed s m lost v x st :
  inv s m lost -> m v = Some (Some x) ->
  exists i s1, own s v = Some i /\ destroy_T s v = Ok s1 /\ vars s1 = vars s
    /\ live s1 = remove Nat.eq_dec i (live s)
    /\ inv (set_var s1 v (Some (Cell false st))) (put m v (Some None)) lost.
Proof.
  intros Hi Hm. pose proof Hi as [A B C D E F G H K].
  pose proof (A v) as Av. unfold agrees in Av. rewrite Hm in Av.
  destruct (vars s v) as [c|] eqn:Ev; [|tauto]. destruct Av as (Hc & i & Hs).
  assert (Ho : own s v = Some i) by (unfold own; now rewrite Ev, Hc, Hs).
  exists i. unfold destroy_T, get_cell. rewrite Ev. cbn [bind]. rewrite Hs.
  destruct (in_dec Nat.eq_dec i (live s)) as [Hin|Hin]; [|destruct Hin; eauto].
  eexists. split; [exact Ho|]. split; [reflexivity|]. cbn [vars live]. split; [auto|]. split; [auto|].
  set (s1 := State (vars s) (remove Nat.eq_dec i (live s)) (next s)).
  assert (Hov : own (set_var s1 v (Some (Cell false st))) v = None).
  { unfold own. rewrite vars_set, Nat.eqb_refl. reflexivity. }
  assert (Hos : forall u, own s1 u = own s u) by (intros; now apply own_ext).
  assert (Hrm : forall j, In j (remove Nat.eq_dec i (live s)) <-> In j (live s) /\ j <> i).
  { intros j. split; [apply in_remove|]. intros [? ?]. now apply in_in_remove. }
  split; cbn [live next set_var s1].
  - intros u. unfold agrees. rewrite vars_set. unfold put. destruct (Nat.eqb_spec u v); [reflexivity|].
    apply A.
  - intros j Hj. apply Hrm in Hj. apply B. tauto.
  - clear -C. induction C as [|h t Hh Ht IH]; cbn; [constructor|].
    destruct (Nat.eq_dec i h); auto. constructor; auto. intros Hi. apply in_remove in Hi. tauto.
  - intros u j Hu. destruct (Nat.eq_dec u v) as [->|Hne]; [congruence|].
    rewrite own_set_ne, Hos in Hu by auto. apply Hrm. split; [eauto|].
    intros ->. apply Hne. eauto.
  - intros u u' j Hu Hu'. destruct (Nat.eq_dec u v) as [->|Hne]; [congruence|].
    destruct (Nat.eq_dec u' v) as [->|Hne']; [congruence|].
    rewrite own_set_ne, Hos in * by auto. eauto.
  - auto.
  - intros j Hj. apply Hrm. split; [auto|]. intros ->. eapply H; eauto.
  - intros u j Hu. destruct (Nat.eq_dec u v) as [->|Hne]; [congruence|].
    rewrite own_set_ne, Hos in Hu by auto. eauto.
  - intros j Hj. apply Hrm in Hj as [Hj Hji]. destruct (K _ Hj) as [?|[u Hu]]; auto.
    right. exists u. rewrite own_set_ne, Hos; auto. intros ->. congruence.
Qed.

(** Constructing a T in an empty Maybe. *)
Lemma inv_construct s m lost v x :
  inv s m lost -> m v = Some None ->
  inv (set_var (State (vars s) (next s :: live s) (S (next s))) v (Some (Cell true (Some (next s, Some x)))))
      (put m v (Some (Some x))) lost.
Proof.
  intros [A B C D E F G H K] Hm.
  set (s1 := State (vars s) (next s :: live s) (S (next s))).
  set (c := Cell true (Some (next s, Some x))).
  assert (Hov : own (set_var s1 v (Some c)) v = Some (next s)).
  { unfold own. rewrite vars_set, Nat.eqb_refl. reflexivity. }
  assert (Hold : own s v = None).
  { specialize (A v). unfold agrees in A. rewrite Hm in A. unfold own.
    destruct (vars s v); [|tauto]. now rewrite A. }
  assert (Hos : forall u, own s1 u = own s u) by (intros; now apply own_ext).
  assert (Hfr : ~ In (next s) (live s)) by (intros Hi; apply B in Hi; lia).
  split; cbn [live next set_var s1].
  - intros u. unfold agrees. rewrite vars_set. unfold put. destruct (Nat.eqb_spec u v).
    + cbn. eauto.
    + apply A.
  - intros i [<-|Hi]; [lia|]. apply B in Hi. lia.
  - constructor; auto.
  - intros u i Hu. destruct (Nat.eq_dec u v) as [->|Hne].
    + left. congruence.
    + rewrite own_set_ne, Hos in Hu by auto. right; eauto.
  - intros u u' i Hu Hu'. destruct (Nat.eq_dec u v) as [->|Hne], (Nat.eq_dec u' v) as [->|Hne']; auto.
    + rewrite own_set_ne, Hos in Hu' by auto. apply D in Hu'. congruence.
    + rewrite own_set_ne, Hos in Hu by auto. apply D in Hu. congruence.
    + rewrite own_set_ne, Hos in * by auto. eauto.
  - auto.
  - intros i Hi. right; auto.
  - intros u i Hu Hi. destruct (Nat.eq_dec u v) as [->|Hne].
    + assert (i = next s) as -> by congruence. auto.
    + rewrite own_set_ne, Hos in Hu by auto. eapply H; eauto.
  - intros i [<-|Hi]; [right; eauto|]. destruct (K _ Hi) as [?|[u Hu]]; auto.
    right. exists u. rewrite own_set_ne, Hos; auto. intros ->. congruence.
Qed.

Lemma agrees_cell s m v x : agrees s m v -> m v = Some x -> exists c, vars s v = Some c.
Proof. unfold agrees. intros H E. rewrite E in H. destruct (vars s v); [eauto|destruct x; tauto]. Qed.

Lemma read_ok s m lost v x : inv s m lost -> m v = Some (Some x) -> read_T s v = Ok x.
Proof.
  intros Hi Hm. pose proof (i_agree _ _ _ Hi v) as A. unfold agrees in A. rewrite Hm in A.
  unfold read_T, get_cell. destruct (vars s v) as [c|] eqn:Ev; [|tauto].
  destruct A as (Hc & i & Hs). cbn [bind]. rewrite Hs.
  destruct (in_dec Nat.eq_dec i (live s)) as [|Hn]; auto.
  destruct Hn. apply (i_own _ _ _ Hi v). unfold own. now rewrite Ev, Hc, Hs.
Qed.

(** init() with an argument that does not depend on v itself. *)
Lemma init_ok s m lost v x arg old :
  inv s m lost -> m v = Some old ->
  (forall s1, vars s1 = vars s -> (forall u i, u <> v -> own s u = Some i -> In i (live s1)) -> arg s1 = Ok (s1, x)) ->
  exists s', init_with s v arg = Ok s' /\ inv s' (put m v (Some (Some x))) lost
    /\ (forall u, u <> v -> vars s' u = vars s u).
Proof.
  intros Hi Hm Harg. unfold init_with, get_cell.
  pose proof (i_agree _ _ _ Hi v) as A. destruct (agrees_cell _ _ _ _ A Hm) as [c Ev].
  rewrite Ev. cbn [bind]. destruct old as [y|].
  - unfold agrees in A. rewrite Ev, Hm in A. destruct A as [-> _].
    destruct (inv_destroyed s m lost v y None Hi Hm) as (i & s1 & Ho & -> & Hvs & Hl & Hinv).
    cbn [bind]. rewrite Harg; auto.
    2:{ intros u j Hu Hj. rewrite Hl. apply in_in_remove; [|exact (i_own _ _ _ Hi _ _ Hj)].
        intros E. apply Hu. rewrite E in Hj. exact (i_inj _ _ _ Hi _ _ _ Hj Ho). }
    cbn [bind]. unfold construct_T, get_cell. rewrite Hvs, Ev. cbn [bind].
    unfold set_init, get_cell. rewrite vars_set, Nat.eqb_refl. cbn [bind storage].
    eexists. split; [reflexivity|]. split.
    + eapply inv_ext; [| | | |apply (inv_construct _ _ _ v x Hinv)]; cbn; auto.
      * intros u. unfold set_var; cbn. destruct (u =? v); auto. now rewrite Hvs.
      * intros u. unfold put. destruct (u =? v); auto.
      * apply put_eq.
    + intros u Hu. rewrite !vars_set. apply Nat.eqb_neq in Hu as ->. reflexivity.
  - unfold agrees in A. rewrite Ev, Hm in A. rewrite A. cbn [bind].
    rewrite Harg; auto.
    2:{ intros u j _ Hj. exact (i_own _ _ _ Hi _ _ Hj). }
    cbn [bind]. unfold construct_T, get_cell. rewrite Ev. cbn [bind].
    unfold set_init, get_cell. rewrite vars_set, Nat.eqb_refl. cbn [bind storage].
    eexists. split; [reflexivity|]. split.
    + eapply inv_ext; [| | | |apply (inv_construct _ _ _ v x Hi Hm)]; cbn; auto.
      intros u. unfold set_var; cbn. destruct (u =? v); auto.
    + intros u Hu. rewrite !vars_set. apply Nat.eqb_neq in Hu as ->. reflexivity.
Qed.

Lemma read_arg s m lost v w x :
  inv s m lost -> m w = Some (Some x) -> v <> w ->
  forall s1, vars s1 = vars s -> (forall u i, u <> v -> own s u = Some i -> In i (live s1)) ->
  (do y <- read_T s1 w; Ok (s1, y)) = Ok (s1, x).
Proof.
  intros Hi Hm Hne s1 Hv Hl. pose proof (i_agree _ _ _ Hi w) as A. unfold agrees in A. rewrite Hm in A.
  unfold read_T, get_cell. rewrite Hv. destruct (vars s w) as [c|] eqn:Ev; [|tauto].
  destruct A as (Hc & i & Hs). cbn [bind]. rewrite Hs.
  destruct (in_dec Nat.eq_dec i (live s1)) as [|Hn]; auto.
  destruct Hn. apply (Hl w); auto. unfold own. now rewrite Ev, Hc, Hs.
Qed.

(** copyFrom(w) into v. *)
Lemma copy_from_ok s m lost v w old x :
  inv s m lost -> v <> w -> m v = Some None -> m w = Some x -> old = x ->
  exists s', copy_from s v w = Ok s' /\ inv s' (put m v (Some x)) lost.
Proof.
  intros Hi Hne Hv Hw _. unfold copy_from, get_cell.
  pose proof (i_agree _ _ _ Hi w) as A. destruct (agrees_cell _ _ _ _ A Hw) as [c Ev].
  unfold agrees in A. rewrite Ev, Hw in A.
  rewrite Ev. cbn [bind]. destruct x as [x|].
  - destruct A as [-> _].
    destruct (init_ok s m lost v x (fun s => do y <- read_T s w; Ok (s, y)) None Hi Hv) as (s' & H1 & H2 & _).
    { intros. eapply read_arg; eauto. }
    eauto.
  - rewrite A. exists s. split; auto. eapply inv_ext; [| | | |exact Hi]; auto.
    intros u. unfold put. destruct (Nat.eqb_spec u v); congruence.
Qed.

(** moveFrom(w) into an empty v: the moved-from T of w is lost. *)
Lemma move_from_ok s m lost v w x :
  inv s m lost -> v <> w -> m v = Some None -> m w = Some x ->
  exists s', move_from s v w = Ok s'
    /\ inv s' (put (put m w (Some None)) v (Some x)) (lost_of s w ++ lost).
Proof.
  intros Hi Hne Hv Hw. unfold move_from, get_cell.
  pose proof (i_agree _ _ _ Hi w) as A. destruct (agrees_cell _ _ _ _ A Hw) as [c Ev].
  unfold agrees in A. rewrite Ev, Hw in A.
  rewrite Ev. cbn [bind]. destruct x as [x|].
  - destruct A as (Hc & i & Hs). rewrite Hc.
    pose proof (inv_empty s m lost w (Some (i, None)) Hi) as He.
    assert (Hv' : put m w (Some None) v = Some None) by (rewrite put_ne; auto).
    unfold init_with, get_cell.
    pose proof (i_agree _ _ _ Hi v) as Av. destruct (agrees_cell _ _ _ _ Av Hv) as [cv Evv].
    unfold agrees in Av. rewrite Evv, Hv in Av. rewrite Evv. cbn [bind]. rewrite Av. cbn [bind].
    unfold take_T. rewrite (read_ok _ _ _ _ _ Hi Hw). cbn [bind]. unfold get_cell. rewrite Ev. cbn [bind].
    rewrite Hs. cbn [bind].
    unfold construct_T, get_cell. rewrite vars_set.
    pose proof (proj2 (Nat.eqb_neq v w) Hne) as Hb. rewrite Hb, Evv. cbn [bind].
    unfold set_init, get_cell. rewrite vars_set, Nat.eqb_refl. cbn [bind storage].
    rewrite !vars_set. assert (Hb' : (w =? v) = false) by (apply Nat.eqb_neq; auto).
    rewrite Hb'. cbn [vars]. rewrite vars_set, Nat.eqb_refl. cbn [bind storage].
    eexists. split; [reflexivity|].
    eapply inv_ext; [| | | |apply (inv_construct _ _ _ v x He Hv')]; cbn; auto.
    intros u. unfold set_var; cbn. destruct (Nat.eqb_spec u w) as [->|]; [rewrite Hb'; auto|].
    destruct (u =? v); auto.
  - rewrite A. exists s. split; auto.
    replace (lost_of s w) with (@nil oid) by (unfold lost_of, own; now rewrite Ev, A).
    eapply inv_ext; [| | | |exact Hi]; auto.
    intros u. unfold put. destruct (Nat.eqb_spec u v), (Nat.eqb_spec u w); congruence.
Qed.

Lemma lost_of_full s m lost v : inv s m lost -> length (lost_of s v) = full m v.
Proof.
  intros Hi. pose proof (i_agree _ _ _ Hi v) as A. unfold agrees in A. unfold lost_of, own, full.
  destruct (vars s v) as [c|], (m v) as [[x|]|]; auto; try tauto.
  - destruct A as (-> & i & ->). reflexivity.
  - now rewrite A.
Qed.

Lemma declare_ok s m lost v :
  inv s m lost -> m v = None ->
  declare s v = Ok (set_var s v (Some (Cell false None)))
  /\ inv (set_var s v (Some (Cell false None))) (put m v (Some None)) lost.
Proof.
  intros Hi Hm. pose proof (i_agree _ _ _ Hi v) as A. unfold agrees in A. rewrite Hm in A.
  unfold declare. destruct (vars s v) eqn:Ev; [tauto|]. split; auto.
  pose proof (inv_empty s m lost v None Hi) as H.
  replace (lost_of s v) with (@nil oid) in H by (unfold lost_of, own; now rewrite Ev). exact H.
Qed.

Lemma set_init_false s m lost v old :
  inv s m lost -> m v = Some old ->
  exists s', set_init s v false = Ok s' /\ inv s' (put m v (Some None)) (lost_of s v ++ lost)
    /\ (forall u, u <> v -> vars s' u = vars s u).
Proof.
  intros Hi Hm. destruct (agrees_cell _ _ _ _ (i_agree _ _ _ Hi v) Hm) as [c Ev].
  unfold set_init, get_cell. rewrite Ev. cbn [bind]. eexists. split; [reflexivity|]. split.
  - now apply inv_empty.
  - intros u Hu. rewrite vars_set. now apply Nat.eqb_neq in Hu as ->.
Qed.

Theorem step_ok s m lost o m' r :
  inv s m lost -> no_self o -> meaning m o = Some (m', r) ->
  exists s' l, step V debug s o = Ok (s', r) /\ inv s' m' (l ++ lost) /\ length l = abandons m o.
Proof.
  intros Hi Hns Hm. destruct o; cbn [meaning abandons no_self] in *; cbn [step].
  - (* New *)
    destruct (m v) eqn:Hv; [discriminate|]. injection Hm as <- <-.
    destruct (declare_ok _ _ _ _ Hi Hv) as [-> H]. eexists _, []. split; [reflexivity|]. auto.
  - (* CopyCtor *)
    destruct (m v) eqn:Hv; [discriminate|]. destruct (m w) as [x|] eqn:Hw; [|discriminate].
    injection Hm as <- <-. assert (Hne : v <> w) by congruence.
    destruct (agrees_cell _ _ _ _ (i_agree _ _ _ Hi w) Hw) as [c Ev].
    unfold get_cell at 1. rewrite Ev. cbn [bind].
    destruct (declare_ok _ _ _ _ Hi Hv) as [-> H]. cbn [bind].
    destruct (copy_from_ok _ _ _ v w x x H Hne) as (s' & -> & H'); auto.
    { apply put_eq. } { rewrite put_ne; auto. }
    eexists _, []. split; [reflexivity|]. split; auto.
    eapply inv_ext; [| | | |exact H']; auto. intros u. unfold put. destruct (u =? v); auto.
  - (* MoveCtor *)
    destruct (m v) eqn:Hv; [discriminate|]. destruct (m w) as [x|] eqn:Hw; [|discriminate].
    injection Hm as <- <-. assert (Hne : v <> w) by congruence.
    destruct (agrees_cell _ _ _ _ (i_agree _ _ _ Hi w) Hw) as [c Ev].
    unfold get_cell at 1. rewrite Ev. cbn [bind].
    destruct (declare_ok _ _ _ _ Hi Hv) as [-> H]. cbn [bind].
    destruct (move_from_ok _ _ _ v w x H Hne) as (s' & -> & H').
    { apply put_eq. } { rewrite put_ne; auto. }
    eexists _, (lost_of s w). split; [reflexivity|]. split.
    + assert (El : lost_of (set_var s v (Some (Cell false None))) w = lost_of s w)
        by (unfold lost_of; rewrite own_set_ne; auto).
      rewrite El in H'. eapply inv_ext; [| | | |exact H']; auto. intros u. unfold put.
      destruct (Nat.eqb_spec u v), (Nat.eqb_spec u w); auto.
    + eapply lost_of_full; eauto.
  - (* SomeCtor *)
    destruct (m v) eqn:Hv; [discriminate|]. injection Hm as <- <-.
    destruct (declare_ok _ _ _ _ Hi Hv) as [-> H]. cbn [bind].
    destruct (init_ok _ _ _ v x (fun s => Ok (s, x)) None H) as (s' & -> & H' & _); auto.
    { apply put_eq. }
    eexists _, []. split; [reflexivity|]. split; auto.
    eapply inv_ext; [| | | |exact H']; auto. intros u. unfold put. destruct (u =? v); auto.
  - (* Init *)
    destruct (m v) as [old|] eqn:Hv; [|discriminate]. injection Hm as <- <-.
    destruct (init_ok _ _ _ v x (fun s => Ok (s, x)) old Hi Hv) as (s' & -> & H' & _); auto.
    eexists _, []. split; [reflexivity|]. auto.
  - (* InitFrom *)
    destruct (m v) as [old|] eqn:Hv; [|discriminate]. destruct (m w) as [[x|]|] eqn:Hw; try discriminate.
    injection Hm as <- <-.
    pose proof (i_agree _ _ _ Hi w) as A. destruct (agrees_cell _ _ _ _ A Hw) as [c Ev].
    unfold agrees in A. rewrite Ev, Hw in A. destruct A as [Hc _].
    unfold get_cell at 1. rewrite Ev. cbn [bind]. rewrite Hc. unfold assert_. cbn [negb].
    rewrite andb_false_r. cbn [bind].
    destruct (init_ok _ _ _ v x (fun s => do y <- read_T s w; Ok (s, y)) old Hi Hv) as (s' & -> & H' & _).
    { intros. eapply read_arg; eauto. }
    eexists _, []. split; [reflexivity|]. auto.
  - (* Assign *)
    destruct (m v) as [old|] eqn:Hv; [|discriminate]. destruct (m w) as [x|] eqn:Hw; [|discriminate].
    injection Hm as <- <-.
    destruct (set_init_false _ _ _ _ _ Hi Hv) as (s1 & -> & H1 & _). cbn [bind].
    destruct (copy_from_ok _ _ _ v w x x H1 Hns) as (s' & -> & H'); auto.
    { apply put_eq. } { rewrite put_ne; auto. }
    eexists _, (lost_of s v). split; [reflexivity|]. split.
    + eapply inv_ext; [| | | |exact H']; auto. intros u. unfold put. destruct (u =? v); auto.
    + eapply lost_of_full; eauto.
  - (* AssignMove *)
    destruct (m v) as [old|] eqn:Hv; [|discriminate]. destruct (m w) as [x|] eqn:Hw; [|discriminate].
    injection Hm as <- <-.
    destruct (set_init_false _ _ _ _ _ Hi Hv) as (s1 & -> & H1 & Hvs). cbn [bind].
    destruct (move_from_ok _ _ _ v w x H1 Hns) as (s' & -> & H').
    { apply put_eq. } { rewrite put_ne; auto. }
    eexists _, (lost_of s w ++ lost_of s v). split; [reflexivity|]. split.
    + assert (El : lost_of s1 w = lost_of s w) by (unfold lost_of, own; rewrite Hvs; auto).
      rewrite El in H'. rewrite <- app_assoc. eapply inv_ext; [| | | |exact H']; auto.
      intros u. unfold put. destruct (Nat.eqb_spec u v), (Nat.eqb_spec u w); auto.
    + rewrite app_length. rewrite !(lost_of_full s m lost) by auto. lia.
  - (* Get *)
    destruct (m v) as [[x|]|] eqn:Hv; try discriminate. injection Hm as <- <-.
    pose proof (i_agree _ _ _ Hi v) as A. destruct (agrees_cell _ _ _ _ A Hv) as [c Ev].
    unfold agrees in A. rewrite Ev, Hv in A. destruct A as [Hc _].
    unfold get_cell. rewrite Ev. cbn [bind]. rewrite Hc. unfold assert_. cbn [negb].
    rewrite andb_false_r. cbn [bind]. rewrite (read_ok _ _ _ _ _ Hi Hv).
    eexists _, []. split; [reflexivity|]. auto.
  - (* IsValid *)
    destruct (m v) as [x|] eqn:Hv; [|discriminate]. injection Hm as <- <-.
    pose proof (i_agree _ _ _ Hi v) as A. destruct (agrees_cell _ _ _ _ A Hv) as [c Ev].
    unfold agrees in A. rewrite Ev, Hv in A. unfold get_cell. rewrite Ev. cbn [bind].
    assert (Hc : initialized c = match x with Some _ => true | None => false end) by (destruct x; tauto).
    rewrite Hc. eexists _, []. split; [reflexivity|]. auto.
  - (* Destroy *)
    destruct (m v) as [x|] eqn:Hv; [|discriminate]. injection Hm as <- <-.
    pose proof (i_agree _ _ _ Hi v) as A. destruct (agrees_cell _ _ _ _ A Hv) as [c Ev].
    unfold agrees in A. rewrite Ev, Hv in A. unfold get_cell. rewrite Ev. cbn [bind].
    assert (Hrem : forall s1 lost1, vars s1 = vars s -> inv (set_var s1 v (Some (Cell false None))) (put m v (Some None)) lost1 ->
              inv (set_var s1 v None) (put m v None) lost1).
    { intros s1 lost1 Hvs [A' B C D E F G H K].
      assert (Ho : forall u, own (set_var s1 v None) u = own (set_var s1 v (Some (Cell false None))) u).
      { intros u. unfold own. rewrite !vars_set. destruct (u =? v); auto. }
      split; auto; cbn [live next set_var] in *.
      - intros u. specialize (A' u). unfold agrees in *. rewrite vars_set in *. unfold put in *.
        destruct (u =? v); auto.
      - intros u i. rewrite Ho. eauto.
      - intros u u' i. rewrite !Ho. eauto.
      - intros u i. rewrite Ho. eauto.
      - intros i Hin. destruct (K i Hin) as [?|[u Hu]]; auto. right. exists u. now rewrite Ho. }
    destruct x as [x|].
    + destruct A as [-> _].
      destruct (inv_destroyed s m lost v x None Hi Hv) as (i & s1 & _ & -> & Hvs & _ & H1). cbn [bind].
      eexists _, []. split; [reflexivity|]. split; [|auto]. cbn [app]. apply Hrem; auto.
    + rewrite A. cbn [bind]. eexists _, []. split; [reflexivity|]. split; [|auto]. cbn [app].
      apply Hrem; auto.
      pose proof (inv_empty s m lost v None Hi) as H.
      replace (lost_of s v) with (@nil oid) in H by (unfold lost_of, own; now rewrite Ev, A). exact H.
Qed.

Theorem run_ok p : forall s m lost m' rs,
  inv s m lost -> Forall no_self p -> meanings m p = Some (m', rs) ->
  exists s' l, run V debug s p = Ok (s', rs) /\ inv s' m' (l ++ lost) /\ length l = abandoned m p.
Proof.
  induction p as [|o p IH]; intros s m lost m' rs Hi Hf Hm; cbn [meanings run abandoned] in *.
  - injection Hm as <- <-. exists s, []. auto.
  - inversion Hf; subst. destruct (meaning m o) as [[m1 r]|] eqn:E; [|discriminate].
    destruct (meanings m1 p) as [[m2 rs']|] eqn:E2; [|discriminate]. injection Hm as <- <-.
    destruct (step_ok _ _ _ _ _ _ Hi H1 E) as (s1 & l1 & -> & Hi1 & Hl1). cbn [bind].
    destruct (IH _ _ _ _ _ Hi1 H2 E2) as (s2 & l2 & -> & Hi2 & Hl2). cbn [bind].
    exists s2, (l2 ++ l1). split; auto. split; [now rewrite <- app_assoc|]. rewrite app_length. lia.
Qed.

Lemma self_empties s m lost v old (move : bool) : inv s m lost -> m v = Some old ->
  exists s', step V debug s (if move then AssignMove v v else Assign v v) = Ok (s', ONone) /\
    inv s' (put m v (Some None)) (lost_of s v ++ lost).
Proof.
  intros Hi Hm. destruct (set_init_false _ _ _ _ _ Hi Hm) as (s1 & E & H1 & _).
  destruct (agrees_cell _ _ _ _ (i_agree _ _ _ H1 v) (put_eq m v (Some None))) as [c Ev].
  pose proof (i_agree _ _ _ H1 v) as A. unfold agrees in A. rewrite Ev, put_eq in A.
  exists s1. split; [|exact H1].
  destruct move; cbn [step]; rewrite E; cbn [bind]; unfold move_from, copy_from, get_cell; rewrite Ev; cbn [bind];
    rewrite A; reflexivity.
Qed.
Theorem actual_ok s m lost o m' r :
  inv s m lost -> actual m o = Some (m', r) ->
  exists s' l, step V debug s o = Ok (s', r) /\ inv s' m' (l ++ lost) /\ length l = leaves m o.
Proof.
  intros Hi Hm.
  assert (Hd : (no_self o /\ meaning m o = Some (m', r) /\ leaves m o = abandons m o) \/
    exists v old, (o = Assign v v \/ o = AssignMove v v) /\ m v = Some old /\ m' = put m v (Some None) /\ r = ONone /\
      leaves m o = full m v).
  { destruct o; cbn [actual leaves no_self] in *; auto; destruct (Nat.eqb_spec v w) as [->|Hne]; auto; try discriminate;
      destruct (m w) as [old|] eqn:Ew; try discriminate; injection Hm as <- <-; right; exists w, old; auto 10. }
  destruct Hd as [(Hn & Hm' & ->)|(v & old & Ho & Hv & -> & -> & ->)]; [eapply step_ok; eauto|].
  destruct Ho as [-> | ->].
  - destruct (self_empties _ _ _ _ _ false Hi Hv) as (s' & E & H'). exists s', (lost_of s v).
    split; [exact E|]. split; [exact H'|]. eapply lost_of_full; eauto.
  - destruct (self_empties _ _ _ _ _ true Hi Hv) as (s' & E & H'). exists s', (lost_of s v).
    split; [exact E|]. split; [exact H'|]. eapply lost_of_full; eauto.
Qed.

Theorem actuals_ok p : forall s m lost m' rs,
  inv s m lost -> actuals m p = Some (m', rs) ->
  exists s' l, run V debug s p = Ok (s', rs) /\ inv s' m' (l ++ lost) /\ length l = left_behind m p.
Proof.
  induction p as [|o p IH]; intros s m lost m' rs Hi Hm; cbn [actuals run left_behind] in *.
  - injection Hm as <- <-. exists s, []. auto.
  - destruct (actual m o) as [[m1 r]|] eqn:E; [|discriminate].
    destruct (actuals m1 p) as [[m2 rs']|] eqn:E2; [|discriminate]. injection Hm as <- <-.
    destruct (actual_ok _ _ _ _ _ _ Hi E) as (s1 & l1 & -> & Hi1 & Hl1). cbn [bind].
    destruct (IH _ _ _ _ _ Hi1 E2) as (s2 & l2 & -> & Hi2 & Hl2). cbn [bind].
    exists s2, (l2 ++ l1). split; auto. split; [now rewrite <- app_assoc|]. rewrite app_length. lia.
Qed.

Lemma inv_init : inv empty_state no_vars [].
Proof.
  split; cbn; try tauto; try constructor; intros; unfold own in *; cbn in *; try discriminate.
Qed.

Lemma inv_final s m lost : inv s m lost -> (forall v, m v = None) -> length (live s) = length lost.
Proof.
  intros Hi Hm. apply Nat.le_antisymm.
  - apply NoDup_incl_length; [apply (i_nodup _ _ _ Hi)|]. intros i Hin.
    destruct (i_cover _ _ _ Hi i Hin) as [|[v Hv]]; auto.
    pose proof (i_agree _ _ _ Hi v) as A. unfold agrees in A. rewrite Hm in A.
    unfold own in Hv. destruct (vars s v); [tauto|discriminate].
  - apply NoDup_incl_length; [apply (i_lnodup _ _ _ Hi)|]. intros i Hin. eapply i_lost; eauto.
Qed.
End Proofs.
