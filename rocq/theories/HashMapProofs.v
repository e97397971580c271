(** HashMap and HashSet refine partial functions and predicates. *)
From Verif Require Import Base BitsModel BitsSpec HashTableModel HashTableSpec HashTableProofs HashTableFacts
  HashMapModel HashMapSpec.
Local Open Scope N_scope.

Lemma filter_none_l {A} (f : A -> bool) l : (forall x, In x l -> f x = false) -> List.filter f l = [].
Proof.
  induction l as [|x l IH]; intros H; [reflexivity|]. cbn. rewrite (H x) by now left.
  apply IH. intros y Hy. apply H. now right.
Qed.

Lemma nodup_map_filter {A B} (f : A -> B) (g : A -> bool) l :
  NoDup (map f l) -> NoDup (map f (List.filter g l)).
Proof.
  induction l as [|x l IH]; intros H; [constructor|]. cbn in H |- *.
  inversion H as [|? ? Hni Hn]; subst. destruct (g x); [|auto]. cbn. constructor; [|auto].
  intros Hin. apply Hni. apply in_map_iff in Hin as (y & E & Hy). apply filter_In in Hy as [Hy _].
  apply in_map_iff. eauto.
Qed.

Section Map.
Variable K V : Type.
Variable eqb : K -> K -> bool.
Hypothesis eqb_spec : forall a b, eqb a b = true <-> a = b.
Variable hashf : K -> N.
Variable k0 : K. Variable v0 : V.
Notation matches := (@mmatches K V eqb).

Lemma eqb_refl k : eqb k k = true.
Proof. now apply eqb_spec. Qed.

Lemma map_policy : policy_ok matches hashf.
Proof.
  intros k k' p Hk Hk'. unfold mmatches in *. apply eqb_spec in Hk, Hk'. subst. split; reflexivity || congruence.
Qed.
Lemma mapop_ok (o : mapop K V) : op_ok matches (mapop_op v0 o).
Proof. destruct o; cbn; auto; unfold mmatches; apply eqb_refl. Qed.

(** Relation between the abstract collection and the partial function. *)
Definition keys_nodup (S : list (K * V)) : Prop := NoDup (map fst S).
Definition rel (S : list (K * V)) (M : pmap K V) : Prop :=
  keys_nodup S /\ forall k v, M k = Some v <-> In (k, v) S.

Lemma nodup_fun S k v w : keys_nodup S -> In (k, v) S -> In (k, w) S -> v = w.
Proof.
  unfold keys_nodup. induction S as [|[a b] S IH]; intros Hn Hv Hw; [destruct Hv|].
  cbn in Hn. inversion Hn as [|? ? Hni Hn']; subst. destruct Hv as [Hv|Hv], Hw as [Hw|Hw].
  - congruence.
  - injection Hv as -> ->. exfalso. apply Hni. apply (in_map fst) in Hw. exact Hw.
  - injection Hw as -> ->. exfalso. apply Hni. apply (in_map fst) in Hv. exact Hv.
  - auto.
Qed.

Lemma rel_perm S S' M : Permutation S S' -> rel S M -> rel S' M.
Proof.
  intros HP [Hn Hi]. split.
  - unfold keys_nodup. eapply Permutation_NoDup; [apply Permutation_map; exact HP|exact Hn].
  - intros k v. rewrite Hi. split; apply Permutation_in; [exact HP|now symmetry].
Qed.

Lemma rel_none S M k : rel S M -> (forall q, In q S -> matches k q = false) <-> M k = None.
Proof.
  intros [Hn Hi]. split.
  - intros H. destruct (M k) as [v|] eqn:E; [|reflexivity]. apply Hi in E. apply H in E.
    unfold mmatches in E. cbn in E. rewrite eqb_refl in E. discriminate.
  - intros H [k' v] Hq. unfold mmatches. cbn. destruct (eqb k k') eqn:E; [|reflexivity].
    apply eqb_spec in E. subst k'. apply Hi in Hq. congruence.
Qed.

Lemma rel_some S M k p : rel S M -> In p S -> matches k p = true -> exists v, p = (k, v) /\ M k = Some v.
Proof.
  intros [Hn Hi] Hp Hm. destruct p as [k' v]. unfold mmatches in Hm. cbn in Hm. apply eqb_spec in Hm. subst k'.
  exists v. split; [reflexivity|]. now apply Hi.
Qed.

Lemma rel_filter S M k : rel S M ->
  rel (List.filter (fun q => negb (matches k q)) S) (update _ _ eqb M k None).
Proof.
  intros [Hn Hi]. split.
  - now apply nodup_map_filter.
  - intros k' v. unfold update. rewrite filter_In. unfold mmatches. cbn [fst].
    destruct (eqb k k') eqn:E; cbn [negb].
    + split; [discriminate|]. intros [_ ?]. discriminate.
    + rewrite Hi. intuition.
Qed.

Lemma rel_cons S M k v : rel S M -> M k = None -> rel ((k, v) :: S) (update _ _ eqb M k (Some v)).
Proof.
  intros HR Hnone. pose proof HR as [Hn Hi]. split.
  - unfold keys_nodup. cbn. constructor; [|exact Hn].
    intros Hin. apply in_map_iff in Hin as ([k' w] & E & Hq). cbn in E. subst k'.
    apply Hi in Hq. congruence.
  - intros k' w. unfold update. cbn. destruct (eqb k k') eqn:E.
    + apply eqb_spec in E. subst k'. split.
      * intros X. injection X as ->. now left.
      * intros [X|X]; [congruence|]. apply Hi in X. congruence.
    + rewrite Hi. split; [auto|]. intros [X|X]; [|exact X]. injection X as -> _. rewrite eqb_refl in E. discriminate.
Qed.

Lemma rel_peq S M M' : peq _ _ M M' -> rel S M -> rel S M'.
Proof. intros E [Hn Hi]. split; [exact Hn|]. intros k v. now rewrite <- E. Qed.

Lemma rel_replace S M k v w : rel S M -> M k = Some w ->
  rel ((k, v) :: List.filter (fun q => negb (matches k q)) S) (update _ _ eqb M k (Some v)).
Proof.
  intros HR Hk.
  apply (rel_peq _ (update _ _ eqb (update _ _ eqb M k None) k (Some v))).
  - intros k'. unfold update. destruct (eqb k k'); reflexivity.
  - apply rel_cons; [now apply rel_filter|]. unfold update. now rewrite eqb_refl.
Qed.

Lemma rel_size S M : rel S M -> size_is _ _ M (N.of_nat (length S)).
Proof.
  intros [Hn Hi]. exists (map fst S). split; [exact Hn|]. split.
  - intros k. rewrite in_map_iff. split.
    + intros ([k' v] & E & Hq). cbn in E. subst k'. apply Hi in Hq. congruence.
    + intros Hk. destruct (M k) as [v|] eqn:E; [|congruence]. apply Hi in E. exists (k, v). auto.
  - now rewrite map_length.
Qed.

Lemma map_step_refines mf S o r S' M : rel S M ->
  spec_step matches mf S (mapop_op v0 o) r S' -> exists M', map_step K V v0 mf eqb M o r M' /\ rel S' M'.
Proof.
  intros HR Hs.
  assert (Hadd : forall k v a, spec_add _ _ matches mf S k (k, v) a r S' ->
    exists M', madd K V mf eqb M k v a r M' /\ rel S' M').
  { intros k v a [(-> & Hnone & HP)|(-> & Hnone & HP & Hmf)]; apply (rel_none _ _ _ HR) in Hnone.
    - exists (update _ _ eqb M k (Some v)). split.
      + split; [exact Hnone|]. left. split; [reflexivity|intros x; reflexivity].
      + eapply rel_perm; [symmetry; exact HP|]. now apply rel_cons.
    - exists M. split.
      + split; [exact Hnone|]. right. repeat split; auto.
      + eapply rel_perm; [symmetry; exact HP|exact HR]. }
  destruct o as [k v a|k a|k v a|k v|k|k| |]; cbn in Hs |- *.
  - destruct Hs as [[(q & Hq & Hm & ->) HP]|HA].
    + destruct (rel_some _ _ _ _ HR Hq Hm) as (w & -> & Hw). exists M. split.
      * left. exists w. repeat split; auto.
      * eapply rel_perm; [symmetry; exact HP|exact HR].
    + destruct (Hadd _ _ _ HA) as (M' & H1 & H2). exists M'. auto.
  - destruct Hs as [[(q & Hq & Hm & ->) HP]|HA].
    + destruct (rel_some _ _ _ _ HR Hq Hm) as (w & -> & Hw). exists M. split.
      * left. exists w. repeat split; auto.
      * eapply rel_perm; [symmetry; exact HP|exact HR].
    + destruct (Hadd _ _ _ HA) as (M' & H1 & H2). exists M'. auto.
  - destruct Hs as [[(q & Hq & Hm & ->) HP]|HA].
    + destruct (rel_some _ _ _ _ HR Hq Hm) as (w & -> & Hw).
      exists (update _ _ eqb M k (Some v)). split.
      * left. exists w. repeat split; auto.
      * eapply rel_perm; [symmetry; exact HP|]. eapply rel_replace; eauto.
    + destruct (Hadd _ _ _ HA) as (M' & H1 & H2). exists M'. auto.
  - destruct Hs as [[(q & Hq & Hm & ->) HP]|[(Hnone & ->) HP]].
    + destruct (rel_some _ _ _ _ HR Hq Hm) as (w & -> & Hw).
      exists (update _ _ eqb M k (Some v)). split.
      * left. exists w. repeat split; auto.
      * eapply rel_perm; [symmetry; exact HP|]. eapply rel_replace; eauto.
    + apply (rel_none _ _ _ HR) in Hnone. exists M. split.
      * right. repeat split; auto.
      * eapply rel_perm; [symmetry; exact HP|exact HR].
  - destruct Hs as [Hs HP]. exists M. split; [|eapply rel_perm; [symmetry; exact HP|exact HR]].
    split; [intros x; reflexivity|]. destruct Hs as [(q & Hq & Hm & ->)|(Hnone & ->)].
    + destruct (rel_some _ _ _ _ HR Hq Hm) as (w & -> & Hw). now rewrite Hw.
    + apply (rel_none _ _ _ HR) in Hnone. now rewrite Hnone.
  - destruct Hs as [-> HP]. exists (update _ _ eqb M k None). split; [split; [reflexivity|intros x; reflexivity]|].
    eapply rel_perm; [symmetry; exact HP|]. now apply rel_filter.
  - destruct Hs as [-> ->]. exists (fun _ => None). split; [split; [reflexivity|intros x; reflexivity]|].
    split; [constructor|]. intros k v. split; [discriminate|intros []].
  - destruct Hs as [-> HP]. exists M. split; [|eapply rel_perm; [symmetry; exact HP|exact HR]].
    split; [|intros x; reflexivity]. eexists. split; [reflexivity|]. now apply rel_size.
Qed.

Lemma map_run_refines mf ops : forall S outs S' M, rel S M ->
  spec_run matches mf S (map (mapop_op v0) ops) outs S' ->
  exists M', map_run v0 mf eqb M ops outs M'.
Proof.
  induction ops as [|o ops IH]; intros S outs S' M HR Hs; inversion Hs; subst.
  - exists M. constructor.
  - destruct (map_step_refines _ _ _ _ _ _ HR ltac:(eassumption)) as (M1 & H1 & HR1).
    destruct (IH _ _ _ _ HR1 ltac:(eassumption)) as (M' & H'). exists M'. econstructor; eauto.
Qed.

Lemma map_life_refines c capacity ops :
  config_ok c -> capacity_ok c capacity ->
  match map_life eqb hashf k0 v0 c capacity ops with
  | Ok (_, outs) =>
      exists M, map_run v0
        (fun alloc => aborts c = false /\ (alloc = false \/ near_limit c (map (mapop_op v0) ops)))
        eqb (fun _ => None) ops outs M
  | Fault Abort =>
      aborts c = true /\
      (Exists (fun o => alloc_refused o = true) (map (mapop_op v0) ops) \/ near_limit c (map (mapop_op v0) ops))
  | Fault AssertFail => debug c = true /\ near_limit c (map (mapop_op v0) ops)
  | _ => False
  end.
Proof.
  intros Hk Hc. unfold map_life.
  assert (Ho : Forall (op_ok matches) (map (mapop_op v0) ops)).
  { apply Forall_map. apply Forall_forall. intros o _. apply mapop_ok. }
  pose proof (life_refines K (K * V) hashf matches (k0, v0) c map_policy Hk capacity
    (map (mapop_op v0) ops) Hc Ho) as H.
  destruct (life hashf matches (k0, v0) c capacity (map (mapop_op v0) ops)) as [[t outs]|f|];
    [|exact H|exact H].
  destruct H as (S & HS).
  eapply map_run_refines; [|exact HS]. split; [constructor|]. intros k v. split; [discriminate|intros []].
Qed.
End Map.

Section Set_.
Variable K : Type.
Variable eqb : K -> K -> bool.
Hypothesis eqb_spec : forall a b, eqb a b = true <-> a = b.
Variable hashf : K -> N.
Variable k0 : K.

Lemma set_policy : policy_ok eqb hashf.
Proof. intros k k' p Hk Hk'. apply eqb_spec in Hk, Hk'. subst. split; reflexivity || congruence. Qed.
Lemma setop_ok (o : setop K) : op_ok eqb (setop_op o).
Proof. destruct o; cbn; auto. now apply eqb_spec. Qed.

Definition srel (S : list K) (X : pset K) : Prop := NoDup S /\ forall k, X k = true <-> In k S.

Lemma srel_perm S S' X : Permutation S S' -> srel S X -> srel S' X.
Proof.
  intros HP [Hn Hi]. split; [eapply Permutation_NoDup; eassumption|].
  intros k. rewrite Hi. split; apply Permutation_in; [exact HP|now symmetry].
Qed.
Lemma srel_none S X k : srel S X -> (forall q, In q S -> eqb k q = false) -> X k = false.
Proof.
  intros [Hn Hi] H. destruct (X k) eqn:E; [|reflexivity]. apply Hi in E. apply H in E.
  rewrite (proj2 (eqb_spec k k) eq_refl) in E. discriminate.
Qed.

Lemma set_step_refines mf S o r S' X : srel S X ->
  spec_step eqb mf S (setop_op o) r S' -> exists Y, set_step K mf eqb X o r Y /\ srel S' Y.
Proof.
  intros HR Hs. pose proof HR as [Hn Hi].
  destruct o as [k a|k|k| |]; cbn in Hs |- *.
  - destruct Hs as [[(q & Hq & Hm & ->) HP]|[(-> & Hnone & HP)|(-> & Hnone & HP & Hmf)]].
    + apply eqb_spec in Hm. subst q. exists X. split.
      * left. repeat split; auto. now apply Hi.
      * eapply srel_perm; [symmetry; exact HP|exact HR].
    + pose proof (srel_none _ _ _ HR Hnone) as Hx. exists (fun k' => eqb k k' || X k'). split.
      * right; left. repeat split; auto.
      * eapply srel_perm; [symmetry; exact HP|]. split.
        -- constructor; [|exact Hn]. intros Hin. apply Hi in Hin. congruence.
        -- intros k'. cbn. rewrite orb_true_iff, eqb_spec, Hi. reflexivity.
    + pose proof (srel_none _ _ _ HR Hnone) as Hx. exists X. split.
      * right; right. repeat split; auto.
      * eapply srel_perm; [symmetry; exact HP|exact HR].
  - destruct Hs as [Hs HP]. exists X. split; [|eapply srel_perm; [symmetry; exact HP|exact HR]].
    split; [|intros x; reflexivity]. destruct Hs as [(q & Hq & Hm & ->)|(Hnone & ->)].
    + apply eqb_spec in Hm. subst q. apply Hi in Hq. now rewrite Hq.
    + now rewrite (srel_none _ _ _ HR Hnone).
  - destruct Hs as [-> HP]. exists (fun k' => negb (eqb k k') && X k'). split; [split; [reflexivity|intros x; reflexivity]|].
    eapply srel_perm; [symmetry; exact HP|]. split; [now apply NoDup_filter|].
    intros k'. rewrite andb_true_iff, filter_In, Hi. tauto.
  - destruct Hs as [-> ->]. exists (fun _ => false). split; [split; [reflexivity|intros x; reflexivity]|].
    split; [constructor|]. intros k. split; [discriminate|intros []].
  - destruct Hs as [-> HP]. exists X. split; [|eapply srel_perm; [symmetry; exact HP|exact HR]].
    split; [|intros x; reflexivity]. eexists. split; [reflexivity|].
    exists S. split; [exact Hn|]. split; [|reflexivity]. intros k. now rewrite Hi.
Qed.

Lemma set_run_refines mf ops : forall S outs S' X, srel S X ->
  spec_run eqb mf S (map setop_op ops) outs S' -> exists Y, set_run mf eqb X ops outs Y.
Proof.
  induction ops as [|o ops IH]; intros S outs S' X HR Hs; inversion Hs; subst.
  - exists X. constructor.
  - destruct (set_step_refines _ _ _ _ _ _ HR ltac:(eassumption)) as (Y & H1 & HR1).
    destruct (IH _ _ _ _ HR1 ltac:(eassumption)) as (Z & H'). exists Z. econstructor; eauto.
Qed.

Lemma set_life_refines c capacity ops :
  config_ok c -> capacity_ok c capacity ->
  match set_life eqb hashf k0 c capacity ops with
  | Ok (_, outs) =>
      exists X, set_run
        (fun alloc => aborts c = false /\ (alloc = false \/ near_limit c (map setop_op ops)))
        eqb (fun _ => false) ops outs X
  | Fault Abort =>
      aborts c = true /\
      (Exists (fun o => alloc_refused o = true) (map setop_op ops) \/ near_limit c (map setop_op ops))
  | Fault AssertFail => debug c = true /\ near_limit c (map setop_op ops)
  | _ => False
  end.
Proof.
  intros Hk Hc. unfold set_life.
  assert (Ho : Forall (op_ok eqb) (map setop_op ops)).
  { apply Forall_map. apply Forall_forall. intros o _. apply setop_ok. }
  pose proof (life_refines K K hashf eqb k0 c set_policy Hk capacity (map setop_op ops) Hc Ho) as H.
  destruct (life hashf eqb k0 c capacity (map setop_op ops)) as [[t outs]|f|]; [|exact H|exact H].
  destruct H as (S & HS).
  eapply set_run_refines; [|exact HS]. split; [constructor|]. intros k. split; [discriminate|intros []].
Qed.
End Set_.
