(** Proofs about hash tables whose payloads use the table in their destructors. *)
From Verif Require Import Base BitsModel BitsSpec BitsProofs HashTableModel HashTableSpec HashTableProofs HashReenterModel HashReenterSpec.
Local Open Scope N_scope.

Section Reenter.
Variable Key Payload : Type.
Variable hashf : Key -> N.
Variable matches : Key -> Payload -> bool.
Variable dflt : Payload.
Variable c : cfg.
Variable dtor : Payload -> list (hop Key Payload).
Variable rank : Payload -> nat.
Variable m0 : N.
Hypothesis Hpol : policy_ok matches hashf.
Hypothesis Htame : tame matches dtor rank.
Notation table := (table Payload).
Notation entry := (entry Payload).
Notation bag := (contents_l Payload).
Notation inv := (inv Key Payload hashf matches c m0).

(** ** Slots *)
Definition holds (l : list entry) (ds : list nat) (D : list Payload) : Prop :=
  Forall2 (fun s p => exists e, nth_error l s = Some e /\ isLive e = true /\ e_pay e = Val p) ds D.
Definition shrinks (ds : list nat) (l l' : list entry) : Prop :=
  length l' = length l /\
  forall i, nth_error l' i = nth_error l i \/
    (~ In i ds /\ (exists e, nth_error l i = Some e /\ isLive e = true) /\ nth_error l' i = Some (Entry kRemovedHash Raw)).

Lemma shrinks_refl ds l : shrinks ds l l.
Proof. split; auto. Qed.
Lemma shrinks_trans ds l1 l2 l3 : shrinks ds l1 l2 -> shrinks ds l2 l3 -> shrinks ds l1 l3.
Proof.
  intros [L1 H1] [L2 H2]. split; [congruence|]. intros i. destruct (H2 i) as [E2|(N2 & (e2 & E2 & V2) & R2)].
  - destruct (H1 i) as [E1|(N1 & X1 & R1)]; [left; congruence|right]. repeat split; auto. congruence.
  - right. split; [exact N2|]. split; [|exact R2].
    destruct (H1 i) as [E1|(N1 & X1 & R1)]; [|exact X1]. exists e2. split; [congruence|exact V2].
Qed.
Lemma shrinks_in ds l l' s : shrinks ds l l' -> In s ds -> nth_error l' s = nth_error l s.
Proof. intros [_ H] Hs. destruct (H s) as [E|(N & _)]; [exact E|contradiction]. Qed.
Lemma shrinks_weaken s ds l l' : shrinks (s :: ds) l l' -> shrinks ds l l'.
Proof.
  intros [L H]. split; [exact L|]. intros i. destruct (H i) as [E|(N & X & R)]; [auto|right].
  repeat split; auto. intros Hi. apply N. now right.
Qed.
Lemma shrinks_kill ds l s e : nth_error l s = Some e -> isLive e = true -> ~ In s ds ->
  shrinks ds l (upd l s (Entry kRemovedHash Raw)).
Proof.
  intros He L Hn. split; [apply upd_length|]. intros i. destruct (Nat.eq_dec s i) as [->|Hne].
  - right. split; [exact Hn|]. split; [eauto|]. apply nth_error_upd_eq. eapply nth_lt; eassumption.
  - left. now apply nth_error_upd_ne.
Qed.
Lemma holds_shrinks ds l l' D : holds l ds D -> shrinks ds l l' -> holds l' ds D.
Proof.
  intros H Hs. assert (G : forall s, In s ds -> nth_error l' s = nth_error l s) by (intros; eapply shrinks_in; eauto).
  clear Hs. unfold holds in *. induction H as [|s p ds D (e & He & X) _ IH]; constructor.
  - exists e. rewrite G by now left. auto.
  - apply IH. intros; apply G; now right.
Qed.
Lemma holds_in l ds D s e p : holds l ds D -> In s ds -> nth_error l s = Some e -> e_pay e = Val p -> In p D.
Proof.
  intros H Hs He Hp. induction H as [|s' p' ds D (e' & He' & _ & Hp') _ IH]; [destruct Hs|].
  destruct Hs as [->|Hs]; [left|right; auto]. congruence.
Qed.
Lemma existsb_notin s ds : ~ In s ds -> existsb (Nat.eqb s) ds = false.
Proof.
  intros H. destruct (existsb (Nat.eqb s) ds) eqn:E; [|reflexivity]. exfalso. apply H.
  apply existsb_exists in E as (x & Hx & Ex). apply Nat.eqb_eq in Ex as ->. exact Hx.
Qed.
Lemma existsb_in s ds : In s ds -> existsb (Nat.eqb s) ds = true.
Proof. intros H. apply existsb_exists. exists s. split; [exact H|apply Nat.eqb_refl]. Qed.

(** ** Destroying a payload *)
Lemma destruct_at_ok ex ds t l s e p t1 l1 ev :
  tbl t = Some l -> nth_error l s = Some e -> isLive e = true -> e_pay e = Val p -> ~ In s ds ->
  ex (s :: ds) t (dtor p) = Ok (t1, ev) -> tbl t1 = Some l1 -> nth_error l1 s = Some e ->
  destruct_at dtor ex ds t s = Ok (set_slot t1 l1 s (Entry (e_hash e) Raw), VDestroyed p :: ev).
Proof.
  intros Ht He L Hp Hn E Ht1 He1. unfold destruct_at. rewrite Ht. cbn [deref bind].
  rewrite (slot_get_ok _ _ _ He). cbn [bind]. rewrite L, existsb_notin, Hp, E by exact Hn. cbn [bind].
  rewrite Ht1. cbn [deref bind]. rewrite (slot_get_ok _ _ _ He1). reflexivity.
Qed.
Lemma set_dead_ok ex h ds t l s e p t1 l1 ev :
  tbl t = Some l -> nth_error l s = Some e -> isLive e = true -> e_pay e = Val p -> ~ In s ds ->
  ex (s :: ds) t (dtor p) = Ok (t1, ev) -> tbl t1 = Some l1 -> nth_error l1 s = Some e ->
  set_dead dtor ex h ds t s = Ok (set_slot t1 l1 s (Entry h Raw), VDestroyed p :: ev).
Proof.
  intros Ht He L Hp Hn E Ht1 He1. unfold set_dead.
  rewrite (destruct_at_ok _ _ _ _ _ _ _ _ _ _ Ht He L Hp Hn E Ht1 He1). cbn [bind set_slot tbl deref].
  erewrite slot_get_ok by (apply nth_error_upd_eq; eapply nth_lt; exact He1). cbn [bind].
  unfold set_slot, setHash. cbn [cap nelem ndel mincap e_pay]. now rewrite upd_twice.
Qed.
Lemma set_dead_dead ex h ds t l s e : tbl t = Some l -> nth_error l s = Some e -> isLive e = false ->
  set_dead dtor ex h ds t s = Ok (set_slot t l s (setHash e h), []).
Proof.
  intros Ht He L. unfold set_dead, destruct_at. rewrite Ht. cbn [deref bind].
  rewrite (slot_get_ok _ _ _ He). cbn [bind]. rewrite L. cbn [bind]. rewrite Ht. cbn [deref bind].
  rewrite (slot_get_ok _ _ _ He). reflexivity.
Qed.
Definition less_one (t1 : table) (l1 : list entry) (s : nat) : table :=
  Table (cap t1) (usub 32 (nelem t1) 1) (uadd 32 (ndel t1) 1) (Some (upd l1 s (Entry kRemovedHash Raw))) (mincap t1).
Lemma remove_key_hit ex ds t l s e p t1 l1 ev k :
  find hashf matches c t k = Ok s ->
  tbl t = Some l -> nth_error l s = Some e -> isLive e = true -> e_pay e = Val p -> ~ In s ds ->
  ex (s :: ds) t (dtor p) = Ok (t1, ev) -> tbl t1 = Some l1 -> nth_error l1 s = Some e ->
  remove_key hashf matches c dtor ex ds t k = Ok (less_one t1 l1 s, VDestroyed p :: ev).
Proof.
  intros Ef Ht He L Hp Hn E Ht1 He1. unfold remove_key. rewrite Ef. cbn [bind].
  assert (F : found t s = Ok true) by (unfold found; rewrite Ht; cbn [deref bind]; rewrite (slot_get_ok _ _ _ He); cbn; now rewrite L).
  rewrite F. cbn [bind]. rewrite assert_true by reflexivity. cbn [bind]. unfold remove_entry. rewrite F. cbn [bind].
  rewrite assert_true by reflexivity. cbn [bind].
  rewrite (set_dead_ok _ kRemovedHash _ _ _ _ _ _ _ _ _ Ht He L Hp Hn E Ht1 He1). reflexivity.
Qed.
Lemma remove_key_miss ex ds t l s e k :
  find hashf matches c t k = Ok s -> tbl t = Some l -> nth_error l s = Some e -> isLive e = false ->
  remove_key hashf matches c dtor ex ds t k = Ok (t, []).
Proof.
  intros Ef Ht He L. unfold remove_key. rewrite Ef. cbn [bind]. unfold found. rewrite Ht. cbn [deref bind].
  rewrite (slot_get_ok _ _ _ He). cbn [bind]. now rewrite L.
Qed.
Lemma find_step t l k s e : find hashf matches c t k = Ok s -> tbl t = Some l -> nth_error l s = Some e ->
  match isLive e, e_pay e with
  | true, Val p => step hashf matches dflt c t (OFind k) = Ok (t, RFound p)
  | true, _ => True
  | false, _ => step hashf matches dflt c t (OFind k) = Ok (t, RAbsent)
  end.
Proof.
  intros Ef Ht He. cbn [step]. rewrite Ef. cbn [bind]. unfold found, read. rewrite Ht. cbn [deref bind].
  rewrite (slot_get_ok _ _ _ He). cbn [bind]. destruct (isLive e) eqn:L; [|reflexivity].
  destruct (e_pay e) eqn:Ep; auto. rewrite (payload_live _ c e p L Ep). reflexivity.
Qed.

(** ** Collections *)
Lemma draining_perm (S : list Payload) ev S' : draining S ev S' -> forall T, Permutation T S -> draining T ev S'.
Proof.
  induction 1 as [S S' HP|S q S1 ev S' HP _ IH|S q ev S' Hq _ IH|S ev S' _ IH]; intros T HT.
  - constructor. now rewrite HT.
  - econstructor; [rewrite HT; exact HP|]. apply IH. reflexivity.
  - constructor; [eapply Permutation_in; [symmetry; exact HT|exact Hq]|auto].
  - constructor. auto.
Qed.
Lemma draining_app S ev1 S1 ev2 S2 : @draining Payload S ev1 S1 -> draining S1 ev2 S2 -> draining S (ev1 ++ ev2) S2.
Proof.
  induction 1 as [S S' HP|S q S1 ev S' HP _ IH|S q ev S' Hq _ IH|S ev S' _ IH]; intros H2; cbn [app].
  - eapply draining_perm; eassumption.
  - econstructor; eauto.
  - constructor; auto.
  - constructor; auto.
Qed.
Lemma draining_destroyed (S : list Payload) ev S' : draining S ev S' -> Permutation S (destroyed ev ++ S') /\ added ev = [].
Proof.
  induction 1 as [S S' HP|S q S1 ev S' HP _ [IH IA]|S q ev S' Hq _ IH|S ev S' _ IH]; cbn; auto.
  split; [|exact IA]. rewrite HP. now constructor.
Qed.

Lemma take D S p l : Permutation (contents_l Payload l) (D ++ S) -> In p (bag l) -> ~ In p D ->
  exists S1, Permutation S (p :: S1) /\ Permutation (bag l) ((p :: D) ++ S1).
Proof.
  intros HP Hp Hn. assert (In p S) as HS.
  { eapply Permutation_in in Hp; [|exact HP]. apply in_app_or in Hp as [|]; [contradiction|assumption]. }
  apply in_split in HS as (A & B & ->). exists (A ++ B). split; [symmetry; apply Permutation_middle|].
  rewrite HP. cbn [app]. transitivity (D ++ p :: (A ++ B)).
  - apply Permutation_app_head. symmetry. apply Permutation_middle.
  - symmetry. apply Permutation_middle.
Qed.

Lemma kill_bag l s e p h : nth_error l s = Some e -> isLive e = true -> e_pay e = Val p -> h <= 1 ->
  Permutation (contents_l Payload l) (p :: bag (upd l s (Entry h Raw))).
Proof.
  intros He L Hp Hh. destruct (contents_upd Payload l s e (Entry h Raw) He) as (A & B & -> & ->).
  rewrite (pay_live _ e p L Hp). rewrite (pay_dead _ (Entry h Raw)).
  - cbn. symmetry. apply Permutation_middle.
  - unfold isLive, kRemovedHash. cbn [e_hash]. lia.
Qed.

(** ** Removal *)
Definition lower (r : nat) (o : hop Key Payload) : Prop :=
  match o with HFind k | HRemove k => forall q, matches k q = true -> (rank q < r)%nat | _ => False end.

Lemma removed_inv t1 l1 s e p : inv t1 l1 -> nth_error l1 s = Some e -> isLive e = true -> e_pay e = Val p ->
  inv (less_one t1 l1 s) (upd l1 s (Entry kRemovedHash Raw)) /\
  nelem (less_one t1 l1 s) + ndel (less_one t1 l1 s) = nelem t1 + ndel t1.
Proof.
  intros H He L Hp. destruct (removeEntry_ok Key Payload hashf matches c m0 t1 l1 s e p H He L Hp) as (t' & E & HI & _ & Hs & _).
  unfold removeEntry in E. rewrite (i_tbl _ _ _ _ _ _ _ _ H) in E. cbn [deref bind] in E.
  rewrite (slot_get_ok _ _ _ He) in E. cbn [bind] in E. rewrite assert_true in E by exact L. cbn [bind] in E.
  unfold setRemoved, destruct_ in E. rewrite L, Hp in E. cbn [bind] in E.
  rewrite slot_set_ok in E by (eapply nth_lt; eassumption). cbn [bind] in E. injection E as <-.
  unfold setHash in HI. cbn [e_pay] in HI. split; [exact HI|exact Hs].
Qed.

Section Nested.
Variable may : bool -> Prop.
Definition good (ex : list nat -> table -> list (hop Key Payload) -> outcome (table * list (event Payload))) (r : nat)
    (os : list (hop Key Payload)) : Prop :=
  forall ds D t l S, inv t l -> holds l ds D -> Permutation (bag l) (D ++ S) -> Forall (fun q => (r <= rank q)%nat) D ->
    exists t' l' ev S', ex ds t os = Ok (t', ev) /\ inv t' l' /\ nelem t' + ndel t' = nelem t + ndel t /\
      shrinks ds l l' /\ Permutation (bag l') (D ++ S') /\ ideal matches dtor may S os ev S' /\ added ev = [].

Lemma remove_key_good ex r k ds D t l S :
  (forall q, In q (bag l) -> matches k q = true -> (rank q < r)%nat /\ good ex (rank q) (dtor q)) ->
  inv t l -> holds l ds D -> Permutation (bag l) (D ++ S) -> Forall (fun q => (r <= rank q)%nat) D ->
  exists t' l' ev S', remove_key hashf matches c dtor ex ds t k = Ok (t', ev) /\ inv t' l' /\ nelem t' + ndel t' = nelem t + ndel t /\
    shrinks ds l l' /\ Permutation (bag l') (D ++ S') /\ added ev = [] /\
    (forall os ev2 S2, ideal matches dtor may S' os ev2 S2 -> ideal matches dtor may S (HRemove k :: os) (ev ++ ev2) S2).
Proof.
  intros Hk H Hd HP Hr. destruct (find_ok Key Payload hashf matches c m0 t l k H) as (s & Ef & e & He & Hc).
  pose proof (i_tbl _ _ _ _ _ _ _ _ H) as Ht.
  destruct Hc as [(L & p & Hp & Hm & Hin)|(L & Hno)].
  - destruct (Hk p Hin Hm) as [Hlt Hg].
    assert (HnD : ~ In p D) by (intros Hx; rewrite Forall_forall in Hr; specialize (Hr p Hx); lia).
    assert (Hns : ~ In s ds) by (intros Hx; apply HnD; eapply holds_in; eassumption).
    destruct (take D S p l HP Hin HnD) as (S1 & HS & HP1).
    destruct (Hg (s :: ds) (p :: D) t l S1 H) as (t1 & l1 & ev & S2 & E & H1 & Hsum & Hsh & HP2 & Hid & Had); auto.
    { constructor; [exists e; auto|exact Hd]. }
    { constructor; [lia|]. eapply Forall_impl; [|exact Hr]. cbn. lia. }
    assert (He1 : nth_error l1 s = Some e) by (rewrite (shrinks_in _ _ _ s Hsh) by (now left); exact He).
    destruct (removed_inv t1 l1 s e p H1 He1 L Hp) as [HI Hs'].
    exists (less_one t1 l1 s), (upd l1 s (Entry kRemovedHash Raw)), (VDestroyed p :: ev), S2.
    split; [eapply remove_key_hit; eauto; apply H1|]. split; [exact HI|]. split; [lia|]. split; [|split; [|split]].
    + eapply shrinks_trans; [eapply shrinks_weaken; exact Hsh|]. eapply shrinks_kill; eassumption.
    + eapply Permutation_cons_inv. rewrite <- (kill_bag l1 s e p kRemovedHash He1 L Hp) by (unfold kRemovedHash; lia). exact HP2.
    + exact Had.
    + intros os ev2 S3 Hrest. cbn [app]. eapply id_remove; eassumption.
  - exists t, l, [], S. split; [eapply remove_key_miss; eauto|]. split; [exact H|]. split; [reflexivity|].
    split; [apply shrinks_refl|]. split; [exact HP|]. split; [reflexivity|].
    intros os ev2 S2 Hrest. cbn [app]. apply id_remove_absent; [|exact Hrest].
    intros q Hq. apply Hno. eapply Permutation_in; [symmetry; exact HP|]. apply in_or_app. now right.
Qed.

Lemma nested_good fuel : forall r os, (r < fuel)%nat -> Forall (lower r) os -> good (exec hashf matches dflt c dtor fuel) r os.
Proof.
  induction fuel as [|f IH]; intros r os Hf Hos; [lia|]. cbn [exec]. unfold good.
  induction Hos as [|o os Ho Hos IHos]; intros ds D t l S H Hd HP Hr.
  - exists t, l, [], S. split; [reflexivity|]. split; [exact H|]. split; [reflexivity|]. split; [apply shrinks_refl|].
    split; [exact HP|]. split; [now constructor|reflexivity].
  - cbn [calls]. destruct o as [k|k p alloc|k| |]; cbn [lower] in Ho; try contradiction.
    + destruct (find_ok Key Payload hashf matches c m0 t l k H) as (s & Ef & e & He & Hc).
      pose proof (find_step t l k s e Ef (i_tbl _ _ _ _ _ _ _ _ H) He) as Es. cbn [call].
      destruct (IHos ds D t l S H Hd HP Hr) as (t' & l' & ev & S' & E & H' & Hs & Hsh & HP' & Hid & Had).
      destruct Hc as [(L & p & Hp & Hm & Hin)|(L & Hno)].
      * rewrite L, Hp in Es. rewrite Es. cbn [bind note]. rewrite E. cbn [bind].
        exists t', l', (VFound p :: ev), S'. split; [reflexivity|]. do 4 (split; [assumption|]). split; [|exact Had].
        constructor; auto. specialize (Ho p Hm). eapply Permutation_in in Hin; [|exact HP].
        apply in_app_or in Hin as [Hx|Hx]; [|exact Hx]. rewrite Forall_forall in Hr. specialize (Hr p Hx). lia.
      * rewrite L in Es. rewrite Es. cbn [bind note]. rewrite E. cbn [bind].
        exists t', l', (VAbsent :: ev), S'. split; [reflexivity|]. do 4 (split; [assumption|]). split; [|exact Had].
        constructor; auto. intros q Hq. apply Hno. eapply Permutation_in; [symmetry; exact HP|]. apply in_or_app. now right.
    + cbn [call]. destruct (remove_key_good (exec hashf matches dflt c dtor f) r k ds D t l S) as
        (t1 & l1 & ev1 & S1 & E1 & H1 & Hs1 & Hsh1 & HP1 & Had1 & Hk1); auto.
      { intros q _ Hq. specialize (Ho q Hq). split; [exact Ho|]. apply IH; [lia|].
        apply Forall_forall. intros o' Ho'. pose proof (Htame q o' Ho') as Hx. unfold lower. destruct o'; auto. }
      rewrite E1. cbn [bind].
      destruct (IHos ds D t1 l1 S1 H1) as (t' & l' & ev & S' & E & H' & Hs & Hsh & HP' & Hid & Had); auto.
      { eapply holds_shrinks; eassumption. }
      rewrite E. cbn [bind]. exists t', l', (ev1 ++ ev), S'. split; [reflexivity|]. split; [exact H'|].
      split; [lia|]. split; [eapply shrinks_trans; eassumption|]. split; [exact HP'|]. split; [now apply Hk1|].
      unfold added in *. rewrite flat_map_app, Had1, Had. reflexivity.
Qed.
End Nested.

(** ** clear(): chains are broken while it runs *)
Record W (t : table) (l : list entry) : Prop := {
  w_tbl : tbl t = Some l;
  w_cap : cap_ok (cap t);
  w_len : length l = N.to_nat (cap t);
  w_entry : forall i e, nth_error l i = Some e -> if isLive e then exists p, e_pay e = Val p else e_pay e = Raw;
  w_free : (nonfree Payload l < length l)%nat
}.
Lemma inv_W t l : inv t l -> W t l.
Proof.
  intros H. pose proof (i_l _ _ _ _ _ _ _ _ H) as HI. constructor; try apply H; try apply HI.
  - intros i e He. pose proof (il_entry _ _ _ _ _ _ HI i e He) as X. unfold entry_ok in X. destruct (isLive e); [|exact X].
    destruct X as (p & X & _). eauto.
  - eapply inv_nonfree; eassumption.
Qed.
Lemma W_upd t l s (e e0 : entry) n d : W t l -> nth_error l s = Some e ->
  (if isLive e0 then exists p, e_pay e0 = Val p else e_pay e0 = Raw) ->
  (isFree e = true -> isFree e0 = true) ->
  W (Table (cap t) n d (Some (upd l s e0)) (mincap t)) (upd l s e0).
Proof.
  intros H He Hok Hf. constructor; cbn [tbl cap]; try apply H; auto.
  - rewrite upd_length. apply H.
  - intros i e' He'. destruct (Nat.eq_dec s i) as [->|Hne].
    + rewrite nth_error_upd_eq in He' by (eapply nth_lt; exact He). injection He' as <-. exact Hok.
    + rewrite nth_error_upd_ne in He' by exact Hne. eapply w_entry; eassumption.
  - rewrite upd_length. destruct (upd_split l s e0 e He) as (l1 & l2 & E & _ & E'). pose proof (w_free _ _ H) as Hx.
    rewrite E'. rewrite E in Hx |- *. unfold nonfree in *. rewrite !filter_app, !app_length in *. cbn [filter] in *.
    destruct (isFree e); cbn [negb] in *; [rewrite (Hf eq_refl) in *|]; cbn [negb length] in *; [lia|].
    destruct (isFree e0); cbn [negb length] in *; lia.
Qed.
Lemma exists_free_W l cp h : cap_ok cp -> length l = N.to_nat cp -> (nonfree Payload l < length l)%nat ->
  exists d e, (d < N.to_nat cp)%nat /\ nth_error l (slotn cp h d) = Some e /\ isFree e = true.
Proof.
  intros Hc Hl Hf.
  destruct (filter_lt_exists (fun e => negb (isFree e)) l Hf) as (i & e & Hi & Hn). pose proof (nth_lt l i e Hi) as Hlt. rewrite Hl in Hlt.
  destruct (slotn_surj cp h i Hc Hlt) as (d & Hd & Ed). exists d, e. rewrite Ed. split; [exact Hd|].
  split; [exact Hi|]. cbn beta in Hn. destruct (isFree e); [reflexivity|discriminate].
Qed.
Definition hits (l : list entry) (k : Key) (s : nat) : Prop :=
  exists e, nth_error l s = Some e /\ (isLive e = false \/ (isLive e = true /\ exists p, e_pay e = Val p /\ matches k p = true)).
Lemma lookup_loop_W t l k : W t l -> forall fuel d h, h < 2 ^ 32 ->
  (fuel + d = N.to_nat (cap t))%nat ->
  (exists d0 e, (d <= d0 < N.to_nat (cap t))%nat /\ nth_error l (slotn (cap t) h d0) = Some e /\ isFree e = true) ->
  exists s, lookup_loop matches c fuel l (cap t) k h ((h + N.of_nat d) mod 2 ^ 32) = Ok s /\ hits l k s.
Proof.
  intros HI. induction fuel as [|f IH]; intros d h Hh Hf (d0 & e0 & Hd0 & He0 & Hfree0); [lia|].
  cbn [lookup_loop]. rewrite (probe_slotn (cap t) h d (w_cap _ _ HI) Hh), next_hash.
  assert (exists e, nth_error l (slotn (cap t) h d) = Some e) as (e & He).
  { destruct (nth_error l (slotn (cap t) h d)) as [e|] eqn:E; [eauto|exfalso]. apply nth_error_None in E.
    pose proof (slotn_lt (cap t) h d (w_cap _ _ HI)). rewrite (w_len _ _ HI) in E. lia. }
  rewrite (slot_get_ok _ _ _ He). cbn [bind].
  assert (Hcont : isFree e = false -> exists s, lookup_loop matches c f l (cap t) k h ((h + N.of_nat (S d)) mod 2 ^ 32) = Ok s /\ hits l k s).
  { intros F. apply IH; [exact Hh|lia|]. exists d0, e0. repeat split; auto; try lia.
    destruct (Nat.eq_dec d d0) as [->|]; [congruence|lia]. }
  destruct (entry_cases _ e) as [(F & R & L)|[(F & R & L)|(F & R & L)]]; rewrite F.
  - eexists. split; [reflexivity|]. exists e. auto.
  - rewrite L. cbn [andb]. now apply Hcont.
  - rewrite L. cbn [andb]. destruct (sameHash e h); [|now apply Hcont].
    pose proof (w_entry _ _ HI _ _ He) as Hp. rewrite L in Hp. destruct Hp as (p & Hp).
    rewrite (payload_live Payload c _ _ L Hp). cbn [bind].
    destruct (matches k p) eqn:Em; [|now apply Hcont].
    eexists. split; [reflexivity|]. exists e. eauto 8.
Qed.
Lemma find_W t l k : W t l -> exists s, find hashf matches c t k = Ok s /\ hits l k s.
Proof.
  intros H. unfold find. rewrite probulator_ok by apply H. cbn [bind]. rewrite (w_tbl _ _ H). cbn [deref bind].
  set (h := computeHash hashf k). assert (Hh : h < 2 ^ 32) by apply computeHash_live.
  destruct (exists_free_W l (cap t) h (w_cap _ _ H) (w_len _ _ H) (w_free _ _ H)) as (d & e & Hd & He & Hf).
  destruct (lookup_loop_W t l k H (N.to_nat (cap t)) 0 h Hh) as (s & Es & Hs); [lia| |].
  - exists d, e. repeat split; auto; lia.
  - exists s. split; [|exact Hs]. rewrite <- Es. f_equal. now rewrite N.add_0_r, N.mod_small.
Qed.
Lemma W_in_bag t l s e p : W t l -> nth_error l s = Some e -> isLive e = true -> e_pay e = Val p -> In p (bag l).
Proof.
  intros H He L Hp. unfold contents_l. apply in_flat_map. exists e. split; [eapply nth_error_In; exact He|].
  rewrite (pay_live _ e p L Hp). now left.
Qed.

Definition drains (ex : list nat -> table -> list (hop Key Payload) -> outcome (table * list (event Payload))) (r : nat)
    (os : list (hop Key Payload)) : Prop :=
  forall ds D t l S, W t l -> holds l ds D -> Permutation (bag l) (D ++ S) -> Forall (fun q => (r <= rank q)%nat) D ->
    exists t' l' ev S', ex ds t os = Ok (t', ev) /\ W t' l' /\ cap t' = cap t /\ mincap t' = mincap t /\
      shrinks ds l l' /\ Permutation (bag l') (D ++ S') /\ draining S ev S'.

Lemma nested_drains fuel : forall r os, (r < fuel)%nat -> Forall (lower r) os -> drains (exec hashf matches dflt c dtor fuel) r os.
Proof.
  induction fuel as [|f IH]; intros r os Hf Hos; [lia|]. cbn [exec]. unfold drains.
  induction Hos as [|o os Ho Hos IHos]; intros ds D t l S H Hd HP Hr.
  - exists t, l, [], S. split; [reflexivity|]. split; [exact H|]. do 2 (split; [reflexivity|]). split; [apply shrinks_refl|].
    split; [exact HP|]. now constructor.
  - cbn [calls]. pose proof (w_tbl _ _ H) as Ht. destruct o as [k|k p alloc|k| |]; cbn [lower] in Ho; try contradiction; cbn [call].
    + destruct (find_W t l k H) as (s & Ef & e & He & Hc). pose proof (find_step t l k s e Ef Ht He) as Es.
      destruct (IHos ds D t l S H Hd HP Hr) as (t' & l' & ev & S' & E & H' & Hc' & Hm' & Hsh & HP' & Hid).
      destruct Hc as [L|(L & p & Hp & Hm)].
      * rewrite L in Es. rewrite Es. cbn [bind note]. rewrite E. cbn [bind].
        exists t', l', (VAbsent :: ev), S'. split; [reflexivity|]. do 5 (split; [assumption|]). now constructor.
      * rewrite L, Hp in Es. rewrite Es. cbn [bind note]. rewrite E. cbn [bind].
        exists t', l', (VFound p :: ev), S'. split; [reflexivity|]. do 5 (split; [assumption|]).
        constructor; auto. specialize (Ho p Hm). pose proof (W_in_bag t l s e p H He L Hp) as Hin.
        eapply Permutation_in in Hin; [|exact HP].
        apply in_app_or in Hin as [Hx|Hx]; [|exact Hx]. rewrite Forall_forall in Hr. specialize (Hr p Hx). lia.
    + destruct (find_W t l k H) as (s & Ef & e & He & Hc). destruct Hc as [L|(L & p & Hp & Hm)].
      * rewrite (remove_key_miss _ _ _ _ _ _ _ Ef Ht He L). cbn [bind].
        destruct (IHos ds D t l S H Hd HP Hr) as (t' & l' & ev & S' & E & H' & Hc' & Hm' & Hsh & HP' & Hid).
        rewrite E. cbn [bind app]. exists t', l', ev, S'. auto 8.
      * specialize (Ho p Hm).
        assert (HnD : ~ In p D) by (intros Hx; rewrite Forall_forall in Hr; specialize (Hr p Hx); lia).
        assert (Hns : ~ In s ds) by (intros Hx; apply HnD; eapply holds_in; eassumption).
        destruct (take D S p l HP (W_in_bag t l s e p H He L Hp) HnD) as (S1 & HS & HP1).
        assert (Hlow : Forall (lower (rank p)) (dtor p)).
        { apply Forall_forall. intros o' Ho'. pose proof (Htame p o' Ho') as Hx. unfold lower. destruct o'; auto. }
        destruct (IH (rank p) (dtor p) ltac:(lia) Hlow (s :: ds) (p :: D) t l S1 H)
          as (t1 & l1 & ev & S2 & E & H1 & Hc1 & Hm1 & Hsh & HP2 & Hid); auto.
        { constructor; [exists e; auto|exact Hd]. }
        { constructor; [lia|]. eapply Forall_impl; [|exact Hr]. cbn. lia. }
        assert (He1 : nth_error l1 s = Some e) by (rewrite (shrinks_in _ _ _ s Hsh) by (now left); exact He).
        rewrite (remove_key_hit _ _ _ _ _ _ _ _ _ _ _ Ef Ht He L Hp Hns E (w_tbl _ _ H1) He1). cbn [bind].
        assert (Hsh2 : shrinks ds l (upd l1 s (Entry kRemovedHash Raw))).
        { eapply shrinks_trans; [eapply shrinks_weaken; exact Hsh|]. eapply shrinks_kill; eassumption. }
        destruct (IHos ds D (less_one t1 l1 s) (upd l1 s (Entry kRemovedHash Raw)) S2)
          as (t' & l' & ev' & S' & E' & H' & Hc' & Hm' & Hsh' & HP' & Hid'); auto.
        { eapply W_upd; [exact H1|exact He1|reflexivity|]. intros F. exfalso.
          destruct (entry_cases _ e) as [(?&?&?)|[(?&?&?)|(?&?&?)]]; congruence. }
        { eapply holds_shrinks; eassumption. }
        { eapply Permutation_cons_inv. rewrite <- (kill_bag l1 s e p kRemovedHash He1 L Hp) by (unfold kRemovedHash; lia). exact HP2. }
        rewrite E'. cbn [bind]. exists t', l', ((VDestroyed p :: ev) ++ ev'), S'. split; [reflexivity|]. split; [exact H'|].
        split; [cbn [less_one cap] in Hc'; congruence|]. split; [cbn [less_one mincap] in Hm'; congruence|].
        split; [eapply shrinks_trans; eassumption|]. split; [exact HP'|].
        cbn [app]. econstructor; [exact HS|]. eapply draining_app; eassumption.
Qed.

(** The loop of clear(): the slots before [i] are free. *)
Definition freed (l : list entry) (i : nat) : Prop := forall j, (j < i)%nat -> nth_error l j = Some (Entry kFreeHash Raw).
Lemma freed_shrinks ds l l' i : freed l i -> shrinks ds l l' -> freed l' i.
Proof.
  intros Hf [_ Hs] j Hj. destruct (Hs j) as [E|(_ & (e & E & L) & _)]; [rewrite E; auto|].
  rewrite (Hf j Hj) in E. injection E as <-. discriminate.
Qed.
Lemma clear_loop fuel n : forall i t l S, W t l -> (i + n = length l)%nat -> freed l i -> Permutation (bag l) S ->
  Forall (fun q => (rank q < fuel)%nat) S ->
  exists t' l' ev S', each (set_dead dtor (exec hashf matches dflt c dtor fuel) kFreeHash []) (seq i n) t = Ok (t', ev) /\
    W t' l' /\ cap t' = cap t /\ mincap t' = mincap t /\ length l' = length l /\ freed l' (i + n) /\ Permutation (bag l') S' /\ draining S ev S'.
Proof.
  induction n as [|n IH]; intros i t l S H Hn Hf HP Hr; cbn [seq each].
  - exists t, l, [], S. split; [reflexivity|]. split; [exact H|]. do 3 (split; [reflexivity|]). split; [now rewrite Nat.add_0_r|].
    split; [exact HP|now constructor].
  - assert (exists e, nth_error l i = Some e) as (e & He).
    { destruct (nth_error l i) as [e|] eqn:E; [eauto|]. apply nth_error_None in E. lia. }
    pose proof (w_tbl _ _ H) as Ht. pose proof (w_entry _ _ H _ _ He) as Hok.
    destruct (isLive e) eqn:L.
    + destruct Hok as (p & Hp). pose proof (W_in_bag t l i e p H He L Hp) as Hin.
      assert (Hlow : Forall (lower (rank p)) (dtor p)).
      { apply Forall_forall. intros o' Ho'. pose proof (Htame p o' Ho') as Hx. unfold lower. destruct o'; auto. }
      destruct (take [] S p l HP Hin ltac:(auto)) as (S1 & HS & HP1).
      assert (Hrp : (rank p < fuel)%nat).
      { rewrite Forall_forall in Hr. apply Hr. eapply Permutation_in; [exact HP|exact Hin]. }
      destruct (nested_drains fuel (rank p) (dtor p) Hrp Hlow [i] [p] t l S1 H)
        as (t1 & l1 & ev & S2 & E & H1 & Hc1 & Hm1 & Hsh & HP2 & Hid); auto.
      { constructor; [exists e; auto|constructor]. }
      assert (He1 : nth_error l1 i = Some e) by (rewrite (shrinks_in _ _ _ i Hsh) by (now left); exact He).
      rewrite (set_dead_ok _ kFreeHash _ _ _ _ _ _ _ _ _ Ht He L Hp (@in_nil _ i) E (w_tbl _ _ H1) He1). cbn [bind].
      assert (Hl1 : length l1 = length l) by apply Hsh.
      destruct (IH (Datatypes.S i) (set_slot t1 l1 i (Entry kFreeHash Raw)) (upd l1 i (Entry kFreeHash Raw)) S2)
        as (t' & l' & ev' & S' & E' & H' & Hc' & Hm' & Hl' & Hf' & HP' & Hid').
      { eapply W_upd; [exact H1|exact He1|reflexivity|reflexivity]. }
      { rewrite upd_length, Hl1. lia. }
      { intros j Hj. destruct (Nat.eq_dec i j) as [->|Hne]; [apply nth_error_upd_eq; rewrite Hl1; eapply nth_lt; exact He|].
        rewrite nth_error_upd_ne by exact Hne. eapply freed_shrinks; [exact Hf|exact Hsh|lia]. }
      { eapply Permutation_cons_inv. rewrite <- (kill_bag l1 i e p kFreeHash He1 L Hp) by (unfold kFreeHash; lia). exact HP2. }
      { rewrite Forall_forall in Hr |- *. intros q Hq. apply Hr. destruct (draining_destroyed _ _ _ Hid) as [HX _].
        eapply Permutation_in; [symmetry; exact HS|]. right. eapply Permutation_in; [symmetry; exact HX|]. apply in_or_app. now right. }
      rewrite E'. cbn [bind]. exists t', l', ((VDestroyed p :: ev) ++ ev'), S'. split; [reflexivity|]. split; [exact H'|].
      split; [cbn [set_slot cap] in Hc'; congruence|]. split; [cbn [set_slot mincap] in Hm'; congruence|].
      split; [rewrite Hl', upd_length; exact Hl1|]. split; [now rewrite <- Nat.add_succ_comm|]. split; [exact HP'|].
      cbn [app]. econstructor; [exact HS|]. eapply draining_app; eassumption.
    + rewrite (set_dead_dead _ _ _ _ _ _ _ Ht He L). cbn [bind].
      destruct (IH (Datatypes.S i) (set_slot t l i (setHash e kFreeHash)) (upd l i (setHash e kFreeHash)) S)
        as (t' & l' & ev' & S' & E' & H' & Hc' & Hm' & Hl' & Hf' & HP' & Hid'); auto.
      { eapply W_upd; [exact H|exact He|exact Hok|reflexivity]. }
      { rewrite upd_length. lia. }
      { intros j Hj. unfold setHash. rewrite Hok. destruct (Nat.eq_dec i j) as [->|Hne]; [apply nth_error_upd_eq; eapply nth_lt; exact He|].
        rewrite nth_error_upd_ne by exact Hne. apply Hf. lia. }
      { destruct (contents_upd Payload l i e (setHash e kFreeHash) He) as (A & B & EA & EB). rewrite EB.
        rewrite (pay_dead _ (setHash e kFreeHash) eq_refl). rewrite EA, (pay_dead _ e L) in HP. exact HP. }
      rewrite E'. cbn [bind app]. exists t', l', ev', S'. split; [reflexivity|]. split; [exact H'|].
      split; [exact Hc'|]. split; [exact Hm'|]. split; [rewrite Hl'; apply upd_length|]. split; [now rewrite <- Nat.add_succ_comm|]. auto.
Qed.
Lemma freed_all l : freed l (length l) -> l = repeat (Entry kFreeHash Raw) (length l).
Proof.
  induction l as [|e l IH]; intros H; [reflexivity|]. cbn [length repeat]. f_equal.
  - specialize (H O ltac:(cbn; lia)). cbn in H. congruence.
  - apply IH. intros j Hj. apply (H (S j)). cbn. lia.
Qed.
Lemma clear_all_good fuel t l : inv t l -> Forall (fun q => (rank q < fuel)%nat) (bag l) ->
  exists t' l' ev, clear_all dtor (exec hashf matches dflt c dtor fuel) [] t = Ok (t', ev) /\ inv t' l' /\ bag l' = [] /\
    nelem t' + ndel t' = 0 /\ draining (bag l) ev [].
Proof.
  intros H Hr. pose proof (inv_W _ _ H) as HW. unfold clear_all.
  destruct (clear_loop fuel (N.to_nat (cap t)) 0 t l (bag l) HW) as (t1 & l1 & ev & S' & E & H1 & Hc1 & Hm1 & Hl1 & Hf1 & HP1 & Hid); auto.
  { now rewrite (w_len _ _ HW). }
  { intros j Hj. lia. }
  rewrite E. cbn [bind].
  assert (El : l1 = fresh Payload (cap t)).
  { unfold fresh. rewrite <- (w_len _ _ HW), <- Hl1. apply freed_all. rewrite Hl1, (w_len _ _ HW). exact Hf1. }
  assert (Ec : bag l1 = []) by (rewrite El; apply contents_repeat).
  rewrite Ec in HP1. apply Permutation_nil in HP1 as ->.
  exists (Table (cap t1) 0 0 (tbl t1) (mincap t1)), l1, ev. split; [reflexivity|]. split; [|auto].
  rewrite Hc1, Hm1, (w_tbl _ _ H1).
  constructor; cbn [cap nelem ndel mincap tbl]; auto; try apply H.
  - rewrite El. apply fresh_inv. apply H.
  - rewrite Ec. intros k. cbn. lia.
  - rewrite Ec. reflexivity.
  - rewrite El. unfold fresh. now rewrite nremoved_repeat.
  - lia.
Qed.

(** ** Whole programs *)
Lemma ideal_perm may S os ev S' : ideal matches dtor may S os ev S' -> forall T, Permutation T S -> ideal matches dtor may T os ev S'.
Proof.
  intros H. induction H; intros T HT;
    repeat match goal with Hi : In ?q ?S, HT : Permutation ?T ?S |- _ => apply (Permutation_in (l' := T)) in Hi; [|symmetry; exact HT] end;
    try match goal with Hn : forall q, In q ?S -> _ |- _ =>
      assert (forall q, In q T -> matches k q = false) by (intros q Hq; apply Hn; eapply Permutation_in; eassumption) end.
  - constructor. now rewrite HT.
  - eapply id_found; eauto.
  - eapply id_absent; eauto.
  - eapply id_present; eauto.
  - eapply id_added; eauto.
  - eapply id_failed; eauto.
  - eapply id_remove; [exact H|rewrite HT; exact H0|exact H1|exact H2].
  - eapply id_remove_absent; eauto.
  - eapply id_clear; eauto. eapply draining_perm; eassumption.
  - rewrite <- (Permutation_length HT). constructor. auto.
Qed.

Lemma ideal_balance may S os ev S' : ideal matches dtor may S os ev S' -> Permutation (S ++ added ev) (destroyed ev ++ S').
Proof.
  assert (Dapp : forall a b : list (event Payload), destroyed (a ++ b) = destroyed a ++ destroyed b)
    by (intros; apply flat_map_app).
  assert (Aapp : forall a b : list (event Payload), added (a ++ b) = added a ++ added b)
    by (intros; apply flat_map_app).
  induction 1 as [S S' HP| | | | S k p alloc os ev S' _ _ IH| |S k q S1 ev1 S2 os ev2 S' Hm HP _ IH1 _ IH2| |S ev1 os ev2 S' Hd _ IH|]; auto.
  - cbn. now rewrite app_nil_r.
  - cbn [added flat_map app] in *. change (flat_map _ ev) with (added ev). etransitivity; [|exact IH].
    symmetry. apply Permutation_middle.
  - cbn [added destroyed flat_map app]. change (flat_map (fun e => match e with VAdded p => [p] | _ => [] end)) with (@added Payload).
    change (flat_map (fun e => match e with VDestroyed p => [p] | _ => [] end)) with (@destroyed Payload).
    rewrite Dapp, Aapp, HP. cbn [app]. constructor.
    rewrite app_assoc, IH1, <- !app_assoc. apply Permutation_app_head. exact IH2.
  - rewrite Dapp, Aapp. destruct (draining_destroyed _ _ _ Hd) as [HP Ha]. rewrite Ha, HP, app_nil_r. cbn [app] in *.
    rewrite <- app_assoc. now apply Permutation_app_head.
Qed.

Lemma ideal_mono (f g : bool -> Prop) S os ev S' : (forall a, f a -> g a) -> ideal matches dtor f S os ev S' -> ideal matches dtor g S os ev S'.
Proof.
  intros Hfg H. induction H.
  - now constructor.
  - eapply id_found; eauto.
  - eapply id_absent; eauto.
  - eapply id_present; eauto.
  - eapply id_added; eauto.
  - eapply id_failed; eauto.
  - eapply id_remove; eauto.
  - eapply id_remove_absent; eauto.
  - eapply id_clear; eauto.
  - eapply id_elements; eauto.
Qed.

Notation ops_of := (map (@as_op Key Payload)).
Notation total := (total_adds Key Payload).
Lemma tame_lower q : Forall (lower (rank q)) (dtor q).
Proof. apply Forall_forall. intros o' Ho'. pose proof (Htame q o' Ho') as Hx. unfold lower. destruct o'; auto. Qed.

Lemma top_ok fuel os : forall t l n, inv t l -> 16 <= kMaxCapacity c -> Forall (hop_ok matches rank fuel) os ->
  Forall (fun q => (rank q < fuel)%nat) (bag l) -> nelem t + ndel t <= n ->
  (debug c = true /\ over c (n + total (ops_of os)) /\ calls hashf matches dflt c dtor (exec hashf matches dflt c dtor fuel) [] t os = Fault AssertFail) \/
  ((existsb (refused Key Payload) (ops_of os) = true \/ over c (n + total (ops_of os))) /\ aborts c = true /\
     calls hashf matches dflt c dtor (exec hashf matches dflt c dtor fuel) [] t os = Fault Abort) \/
  (exists t' ev l', calls hashf matches dflt c dtor (exec hashf matches dflt c dtor fuel) [] t os = Ok (t', ev) /\ inv t' l' /\
     Forall (fun q => (rank q < fuel)%nat) (bag l') /\
     ideal matches dtor (fun a => aborts c = false /\ (a = false \/ over c (n + total (ops_of os)))) (bag l) os ev (bag l') /\
     nelem t' + ndel t' <= n + total (ops_of os)).
Proof.
  induction os as [|o os IH]; intros t l n H Hk Hops Hr Hn.
  - right; right. exists t, [], l. split; [reflexivity|]. split; [exact H|]. split; [exact Hr|].
    split; [now constructor|]. cbn. lia.
  - inversion Hops as [|? ? Ho Hops']; subst. cbn [calls map existsb].
    change (total (as_op o :: ops_of os)) with (adds Key Payload (as_op o) + total (ops_of os)).
    set (N' := n + (adds Key Payload (as_op o) + total (ops_of os))).
    assert (Hlim : limit Payload c t -> over c N').
    { intros Hl. pose proof (limit_over Key Payload hashf matches c m0 t l n H Hk Hn Hl). unfold over, N' in *. lia. }
    assert (Hrest : forall t1 l1 ev1, inv t1 l1 -> Forall (fun q => (rank q < fuel)%nat) (bag l1) ->
      nelem t1 + ndel t1 <= n + adds Key Payload (as_op o) ->
      call hashf matches dflt c dtor (exec hashf matches dflt c dtor fuel) [] t o = Ok (t1, ev1) ->
      (forall (may : bool -> Prop) os' ev2 S2, (forall a, aborts c = false /\ (a = false \/ limit Payload c t) -> may a) ->
         ideal matches dtor may (bag l1) os' ev2 S2 -> ideal matches dtor may (bag l) (o :: os') (ev1 ++ ev2) S2) ->
      let x := (do (t1, ev1) <- call hashf matches dflt c dtor (exec hashf matches dflt c dtor fuel) [] t o;
        do (t2, ev2) <- calls hashf matches dflt c dtor (exec hashf matches dflt c dtor fuel) [] t1 os; Ok (t2, ev1 ++ ev2)) in
      (debug c = true /\ over c N' /\ x = Fault AssertFail) \/
      ((refused Key Payload (as_op o) || existsb (refused Key Payload) (ops_of os) = true \/ over c N') /\ aborts c = true /\ x = Fault Abort) \/
      (exists t' ev l', x = Ok (t', ev) /\ inv t' l' /\ Forall (fun q => (rank q < fuel)%nat) (bag l') /\
         ideal matches dtor (fun a => aborts c = false /\ (a = false \/ over c N')) (bag l) (o :: os) ev (bag l') /\
         nelem t' + ndel t' <= N')).
    { intros t1 l1 ev1 H1 Hr1 Hn1 E1 Hid x. subst x. rewrite E1. cbn [bind].
      destruct (IH t1 l1 _ H1 Hk Hops' Hr1 Hn1) as [(?&Hov&E)|[(Hov&?&E)|(t' & ev & l' & E & H' & Hr' & Hid' & Hn')]]; rewrite E; cbn [bind].
      - left. repeat split; auto. unfold N'. now rewrite N.add_assoc.
      - right; left. split; [|auto]. destruct Hov as [->|Hov]; [left; apply orb_true_r|right; unfold N'; now rewrite N.add_assoc].
      - right; right. exists t', (ev1 ++ ev), l'. split; [reflexivity|]. split; [exact H'|]. split; [exact Hr'|].
        split; [|unfold N'; lia]. eapply Hid.
        + intros a [Ha Hb]. split; [exact Ha|]. destruct Hb; auto.
        + eapply ideal_mono; [|exact Hid']. intros a Ha. unfold N'. now rewrite N.add_assoc. }
    destruct o as [k|k p alloc|k| |]; cbn [as_op adds] in *.
    + apply Hrest with (t1 := t) (l1 := l)
        (ev1 := match find hashf matches c t k with
                | Ok s => match nth_error l s with Some e => match isLive e, e_pay e with true, Val p => [VFound p] | _, _ => [VAbsent] end | None => [] end
                | _ => [] end); auto; [lia| |].
      * destruct (find_ok Key Payload hashf matches c m0 t l k H) as (s & Ef & e & He & Hc).
        pose proof (find_step t l k s e Ef (i_tbl _ _ _ _ _ _ _ _ H) He) as Es. rewrite Ef, He. cbn [call].
        destruct Hc as [(L & p & Hp & _)|(L & _)].
        -- rewrite L, Hp in *. rewrite Es. reflexivity.
        -- rewrite L in *. rewrite Es. reflexivity.
      * intros may os' ev2 S2 _ Hid. destruct (find_ok Key Payload hashf matches c m0 t l k H) as (s & Ef & e & He & Hc).
        rewrite Ef, He. destruct Hc as [(L & p & Hp & Hm & Hin)|(L & Hno)].
        -- rewrite L, Hp. cbn [app]. eapply id_found; eauto.
        -- rewrite L. cbn [app]. eapply id_absent; eauto.
    + destruct Ho as [Hm Hrk].
      destruct (step_ok Key Payload hashf matches dflt c Hpol m0 t l (OAdd k p alloc) H Hk Hm)
        as [(Hd & Hl & E)|[(Hl & Ha & E)|(t1 & r & l1 & E & H1 & Hs & Hn1 & Hf)]].
      * cbn [call]. rewrite E. cbn [bind]. left. auto.
      * cbn [call]. rewrite E. cbn [bind]. right; left. split; [|auto]. destruct Hl as [Hl|Hl]; [|auto].
        left. change (refused Key Payload (OAdd k p alloc)) with (negb alloc) in *. now rewrite Hl.
      * cbn [adds] in Hn1. apply Hrest with (t1 := t1) (l1 := l1) (ev1 := note r); auto; [|lia| |].
        -- rewrite Forall_forall in Hr |- *. intros q Hq.
           destruct Hs as [[_ HP]|[(_ & _ & HP)|(_ & _ & HP & _)]]; eapply Permutation_in in Hq; try exact HP; auto.
           destruct Hq as [<-|Hq]; auto.
        -- cbn [call]. rewrite E. cbn [bind]. rewrite andb_false_r. reflexivity.
        -- intros may os' ev2 S2 Hmay Hid. destruct Hs as [[(q & Hq & Hmq & ->) HP]|[(-> & Hno & HP)|(-> & Hno & HP & Hmf)]]; cbn [note app].
           ++ eapply id_present; eauto. eapply ideal_perm; [exact Hid|now symmetry].
           ++ eapply id_added; eauto. eapply ideal_perm; [exact Hid|now symmetry].
           ++ eapply id_failed; eauto. eapply ideal_perm; [exact Hid|now symmetry].
    + destruct (remove_key_good (fun _ => False) (exec hashf matches dflt c dtor fuel) fuel k [] [] t l (bag l)) as
        (t1 & l1 & ev1 & S1 & E1 & H1 & Hs1 & Hsh1 & HP1 & Had1 & Hk1); [|exact H|constructor|reflexivity|constructor|].
      { intros q Hq _. rewrite Forall_forall in Hr. split; [auto|]. apply nested_good; [auto|apply tame_lower]. }
      cbn [app] in HP1.
      apply Hrest with (t1 := t1) (l1 := l1) (ev1 := ev1); auto; [|lia|].
      * rewrite Forall_forall in Hr |- *. intros q Hq. apply Hr.
        pose proof (ideal_balance _ _ _ _ _ (Hk1 [] [] S1 ltac:(constructor; reflexivity))) as HB.
        rewrite app_nil_r, Had1, app_nil_r in HB. eapply Permutation_in; [symmetry; exact HB|]. apply in_or_app. right.
        eapply Permutation_in; [exact HP1|exact Hq].
      * intros may os' ev2 S2 _ Hid. 
        assert (G : exists t1' l1' ev1' S1', remove_key hashf matches c dtor (exec hashf matches dflt c dtor fuel) [] t k = Ok (t1', ev1') /\
           inv t1' l1' /\ Permutation (bag l1') S1' /\
           (forall os ev2 S2, ideal matches dtor may S1' os ev2 S2 -> ideal matches dtor may (bag l) (HRemove k :: os) (ev1' ++ ev2) S2)).
        { destruct (remove_key_good may (exec hashf matches dflt c dtor fuel) fuel k [] [] t l (bag l)) as
            (t1' & l1' & ev1' & S1' & E1' & H1' & _ & _ & HP1' & _ & Hk1'); [|exact H|constructor|reflexivity|constructor|].
          { intros q Hq _. rewrite Forall_forall in Hr. split; [auto|]. apply nested_good; [auto|apply tame_lower]. }
          exists t1', l1', ev1', S1'. auto. }
        destruct G as (t1' & l1' & ev1' & S1' & E1' & H1' & HP1' & Hk1').
        rewrite E1 in E1'. injection E1' as <- <-.
        assert (l1' = l1) as -> by (pose proof (i_tbl _ _ _ _ _ _ _ _ H1); pose proof (i_tbl _ _ _ _ _ _ _ _ H1'); congruence).
        apply Hk1'. eapply ideal_perm; [exact Hid|now symmetry].
    + destruct (clear_all_good fuel t l H Hr) as (t1 & l1 & ev1 & E1 & H1 & Hb1 & Hn1 & Hd1).
      apply Hrest with (t1 := t1) (l1 := l1) (ev1 := ev1); auto; [rewrite Hb1; constructor|lia|].
      intros may os' ev2 S2 _ Hid. rewrite Hb1 in Hid. eapply id_clear; eauto.
    + apply Hrest with (t1 := t) (l1 := l) (ev1 := [VCount (nelem t)]); auto; [lia|].
      intros may os' ev2 S2 _ Hid. cbn [app]. rewrite (i_nelem _ _ _ _ _ _ _ _ H). now apply id_elements.
Qed.

Lemma destroy_empty fuel t l : inv t l -> bag l = [] -> destroy_all hashf matches dflt c dtor fuel t = Ok [].
Proof.
  intros H Hb. pose proof (i_l _ _ _ _ _ _ _ _ H) as HI. pose proof (i_tbl _ _ _ _ _ _ _ _ H) as Ht.
  assert (Hdead : forall i e, nth_error l i = Some e -> isLive e = false /\ e_pay e = Raw).
  { intros i e He. pose proof (il_entry _ _ _ _ _ _ HI i e He) as Hok. unfold entry_ok in Hok. destruct (isLive e) eqn:L; [|auto].
    exfalso. destruct Hok as (p & Hp & _). assert (Hin : In p (bag l)); [|rewrite Hb in Hin; destruct Hin].
    exact (W_in_bag t l i e p (inv_W _ _ H) He L Hp). }
  assert (E : forall n i, (i + n <= length l)%nat ->
    each (destruct_at dtor (exec hashf matches dflt c dtor fuel) []) (seq i n) t = Ok (t, [])).
  { induction n as [|n IH]; intros i Hi; cbn [seq each]; [reflexivity|].
    destruct (nth_error l i) as [e|] eqn:He; [|apply nth_error_None in He; lia].
    unfold destruct_at at 1. rewrite Ht. cbn [deref bind]. rewrite (slot_get_ok _ _ _ He). cbn [bind].
    destruct (Hdead i e He) as [-> _]. cbn [bind]. rewrite IH by lia. reflexivity. }
  unfold destroy_all. rewrite E by (rewrite (il_len _ _ _ _ _ _ HI); lia). cbn [bind]. rewrite Ht. unfold am_free.
  replace (forallb is_raw l) with true; [reflexivity|]. symmetry. apply forallb_forall. intros e He.
  apply In_nth_error in He as [i Hi]. unfold is_raw. now rewrite (proj2 (Hdead i e Hi)).
Qed.

Lemma life_re_ok fuel capacity os : m0 = N.max 16 capacity -> config_ok c -> capacity_ok c capacity ->
  Forall (hop_ok matches rank fuel) os ->
  let near := near_limit c (ops_of (os ++ [HClear])) in
  (debug c = true /\ near /\ life_re hashf matches dflt c dtor fuel capacity (os ++ [HClear]) = Fault AssertFail) \/
  ((Exists (fun o => alloc_refused o = true) (ops_of (os ++ [HClear])) \/ near) /\ aborts c = true /\
     life_re hashf matches dflt c dtor fuel capacity (os ++ [HClear]) = Fault Abort) \/
  (exists ev, life_re hashf matches dflt c dtor fuel capacity (os ++ [HClear]) = Ok ev /\
     ideal matches dtor (fun a => aborts c = false /\ (a = false \/ near)) [] (os ++ [HClear]) ev [] /\
     Permutation (added ev) (destroyed ev)).
Proof.
  intros Hm Hk Hc Hops near.
  destruct (init_ok Key Payload hashf matches c m0 capacity Hm Hk Hc) as (t & E & Hi & _ & _ & En & Ed).
  unfold life_re. rewrite E. cbn [bind exec].
  assert (Hb : bag (fresh Payload (cap t)) = []) by apply contents_repeat.
  assert (Hops' : Forall (hop_ok matches rank fuel) (os ++ [HClear])) by (apply Forall_app; split; [exact Hops|repeat constructor]).
  destruct (top_ok fuel (os ++ [HClear]) t (fresh Payload (cap t)) 0 Hi Hk Hops') as
    [(?&Ho&Er)|[(Ho&?&Er)|(t' & ev & l' & Er & H' & _ & Hid & _)]]; [rewrite Hb; constructor|lia| | |];
    rewrite Er; cbn [bind]; rewrite N.add_0_l, (total_adds_filter Key Payload dflt) in *.
  - left. auto.
  - right; left. split; [|auto]. destruct Ho as [Ho|Ho]; [left; apply (refused_ex Key Payload); exact Ho|right; exact Ho].
  - right; right. rewrite Hb in Hid.
    assert (Hl' : bag l' = []).
    { clear -Hid. revert Hid. generalize (bag l'). intros S' Hid. revert Hid. generalize (@nil Payload) at 1.
      remember (os ++ [HClear]) as os' eqn:Eo. intros S0 Hid. revert os Eo.
      induction Hid; intros os0 Eo; destruct os0 as [|o' os0]; cbn [app] in Eo; try discriminate; inversion Eo; subst; eauto.
      - inversion Hid; subst. now apply Permutation_nil in H0. }
    rewrite (destroy_empty fuel t' l' H' Hl'). cbn [bind]. rewrite app_nil_r. rewrite Hl' in Hid.
    exists ev. split; [reflexivity|]. split; [exact Hid|]. pose proof (ideal_balance _ _ _ _ _ Hid) as HB.
    now rewrite app_nil_r in HB.
Qed.
End Reenter.

(** ** Destructors outside the condition *)
Section Wild.
Variable Key Payload : Type.
Variable hashf : Key -> N.
Variable matches : Key -> Payload -> bool.
Variable dflt : Payload.
Variable c : cfg.
Variable dtor : Payload -> list (hop Key Payload).
Variable m0 : N.
Hypothesis Hpol : policy_ok matches hashf.
Notation table := (table Payload).
Notation entry := (entry Payload).
Notation bag := (contents_l Payload).
Notation inv := (inv Key Payload hashf matches c m0).

Lemma filled_inv capacity t : m0 = N.max 16 capacity -> config_ok c -> capacity_ok c capacity ->
  filled hashf matches dflt c dtor capacity t -> exists l, inv t l.
Proof.
  intros Hm Hk Hc (t0 & adds & fuel & ev & Ei & Hadds & E).
  destruct (init_ok Key Payload hashf matches c m0 capacity Hm Hk Hc) as (t1 & E1 & Hi & _).
  rewrite E1 in Ei. injection Ei as ->. revert E Hi. generalize (fresh Payload (cap t0)). clear E1. cbn [exec].
  revert t0 ev. induction Hadds as [|o os Ho _ IH]; intros t0 ev l E Hi; cbn [calls] in E.
  - injection E as -> _. eauto.
  - destruct o as [k|k p alloc|k| |]; try contradiction. cbn [call] in E.
    destruct (step_ok Key Payload hashf matches dflt c Hpol m0 t0 l (OAdd k p alloc) Hi Hk Ho)
      as [(_ & _ & Es)|[(_ & _ & Es)|(t2 & r & l2 & Es & H2 & _)]]; rewrite Es in E; cbn [bind] in E; try discriminate.
    rewrite andb_false_r in E. cbn [bind] in E.
    destruct (calls hashf matches dflt c dtor (exec hashf matches dflt c dtor fuel) [] t2 os) as [[t3 ev3]| |] eqn:E3; cbn [bind] in E; try discriminate.
    injection E as <- _. eapply IH; eassumption.
Qed.

(** The element a key finds, in terms of slots. *)
Lemma found_slot t l k p : inv t l -> step hashf matches dflt c t (OFind k) = Ok (t, RFound p) ->
  exists s e, find hashf matches c t k = Ok s /\ nth_error l s = Some e /\ isLive e = true /\ e_pay e = Val p /\ matches k p = true.
Proof.
  intros H E. destruct (find_ok Key Payload hashf matches c m0 t l k H) as (s & Ef & e & He & Hc).
  pose proof (find_step Key Payload hashf matches dflt c t l k s e Ef (i_tbl _ _ _ _ _ _ _ _ H) He) as Es.
  destruct Hc as [(L & q & Hq & Hm & _)|(L & _)].
  - rewrite L, Hq in Es. rewrite E in Es. injection Es as <-. exists s, e. auto.
  - rewrite L in Es. rewrite E in Es. discriminate.
Qed.
Lemma same_slot t l k k' p s e : inv t l -> find hashf matches c t k = Ok s -> nth_error l s = Some e -> isLive e = true ->
  e_pay e = Val p -> matches k' p = true -> find hashf matches c t k' = Ok s.
Proof.
  intros H Ef He L Hp Hm. destruct (find_ok Key Payload hashf matches c m0 t l k' H) as (s' & Ef' & e' & He' & Hc').
  rewrite Ef'. f_equal.
  assert (Hin : In p (bag l)) by (exact (W_in_bag Payload t l s e p (inv_W _ _ _ _ _ _ _ _ H) He L Hp)).
  destruct Hc' as [(L' & q & Hq & Hmq & _)|(L' & Hno)]; [|rewrite (Hno p Hin) in Hm; discriminate].
  destruct (Nat.eq_dec s' s) as [|Hne]; [assumption|exfalso].
  pose proof (i_uniq _ _ _ _ _ _ _ _ H k') as HU.
  pose proof (kill_bag Payload l s e p 0 He L Hp ltac:(lia)) as HP.
  rewrite (Permutation_length (filter_perm (matches k') _ _ HP)) in HU. cbn [filter] in HU. rewrite Hm in HU. cbn [length] in HU.
  assert (Hq' : In q (filter (matches k') (bag (upd l s (Entry 0 Raw))))).
  { apply filter_In. split; [|exact Hmq]. unfold contents_l. apply in_flat_map. exists e'. split.
    - apply nth_error_In with s'. rewrite nth_error_upd_ne by auto. exact He'.
    - rewrite (pay_live _ e' q L' Hq). now left. }
  destruct (filter (matches k') (bag (upd l s (Entry 0 Raw)))); [destruct Hq'|cbn in HU; lia].
Qed.

Lemma own_lookup t l k k' p f : inv t l -> step hashf matches dflt c t (OFind k) = Ok (t, RFound p) -> matches k' p = true ->
  dtor p = [HFind k'; HElements] ->
  exists t', exec hashf matches dflt c dtor (S (S f)) [] t [HRemove k] = Ok (t', [VDestroyed p; VFound p; VCount (elements t)]).
Proof.
  intros H E Hm Hd. destruct (found_slot t l k p H E) as (s & e & Ef & He & L & Hp & _).
  pose proof (same_slot t l k k' p s e H Ef He L Hp Hm) as Ef'. pose proof (i_tbl _ _ _ _ _ _ _ _ H) as Ht.
  pose proof (find_step Key Payload hashf matches dflt c t l k' s e Ef' Ht He) as Es. rewrite L, Hp in Es.
  assert (E1 : exec hashf matches dflt c dtor (S f) [s] t (dtor p) = Ok (t, [VFound p; VCount (elements t)])).
  { rewrite Hd. cbn [exec calls call]. rewrite Es. reflexivity. }
  change (exec hashf matches dflt c dtor (S (S f)) [] t [HRemove k]) with
    (calls hashf matches dflt c dtor (exec hashf matches dflt c dtor (S f)) [] t [HRemove k]).
  cbn [calls call].
  rewrite (remove_key_hit Key Payload hashf matches c dtor _ _ _ _ _ _ _ _ _ _ _ Ef Ht He L Hp (@in_nil _ s) E1 Ht He).
  eexists. reflexivity.
Qed.
Lemma own_remove t l k k' p rest f : inv t l -> step hashf matches dflt c t (OFind k) = Ok (t, RFound p) -> matches k' p = true ->
  dtor p = HRemove k' :: rest ->
  exec hashf matches dflt c dtor (S (S f)) [] t [HRemove k] = Fault DoubleFree.
Proof.
  intros H E Hm Hd. destruct (found_slot t l k p H E) as (s & e & Ef & He & L & Hp & _).
  pose proof (same_slot t l k k' p s e H Ef He L Hp Hm) as Ef'. pose proof (i_tbl _ _ _ _ _ _ _ _ H) as Ht.
  assert (F : found t s = Ok true) by (unfold found; rewrite Ht; cbn [deref bind]; rewrite (slot_get_ok _ _ _ He); cbn; now rewrite L).
  assert (E1 : exec hashf matches dflt c dtor (S f) [s] t (dtor p) = Fault DoubleFree).
  { rewrite Hd. cbn [exec calls call]. unfold remove_key. rewrite Ef'. cbn [bind]. rewrite F. cbn [bind].
    rewrite assert_true by reflexivity. cbn [bind]. unfold remove_entry. rewrite F. cbn [bind]. rewrite assert_true by reflexivity.
    unfold set_dead, destruct_at. rewrite Ht. cbn [deref bind]. rewrite (slot_get_ok _ _ _ He). cbn [bind]. rewrite L.
    cbn [existsb]. rewrite Nat.eqb_refl. reflexivity. }
  change (exec hashf matches dflt c dtor (S (S f)) [] t [HRemove k]) with
    (calls hashf matches dflt c dtor (exec hashf matches dflt c dtor (S f)) [] t [HRemove k]).
  cbn [calls call]. unfold remove_key. rewrite Ef. cbn [bind]. rewrite F. cbn [bind].
  rewrite assert_true by reflexivity. cbn [bind]. unfold remove_entry. rewrite F. cbn [bind]. rewrite assert_true by reflexivity.
  unfold set_dead, destruct_at. rewrite Ht. cbn [deref bind]. rewrite (slot_get_ok _ _ _ He). cbn [bind]. rewrite L.
  cbn [existsb]. rewrite Hp, E1. reflexivity.
Qed.

(** A nested clear() reaches the slot whose payload is being destroyed. *)
Lemma nested_clear_loop ex s slots : In s slots -> forall t l e p, tbl t = Some l ->
  (forall i, In i slots -> exists e, nth_error l i = Some e) ->
  (forall i e, nth_error l i = Some e -> if isLive e then exists p, e_pay e = Val p else e_pay e = Raw) ->
  nth_error l s = Some e -> isLive e = true -> e_pay e = Val p ->
  (forall i e q, i <> s -> nth_error l i = Some e -> isLive e = true -> e_pay e = Val q -> dtor q = []) ->
  (forall ds t, ex ds t [] = Ok (t, [])) ->
  each (set_dead dtor ex kFreeHash [s]) slots t = Fault DoubleFree.
Proof.
  intros Hin. induction slots as [|i slots IH]; [destruct Hin|]. intros t l e p Ht Hsl Hok He L Hp Hoth Hex. cbn [each].
  destruct (Nat.eq_dec i s) as [->|Hne].
  - unfold set_dead, destruct_at. rewrite Ht. cbn [deref bind]. rewrite (slot_get_ok _ _ _ He). cbn [bind]. rewrite L.
    cbn [existsb]. rewrite Nat.eqb_refl. reflexivity.
  - destruct Hin as [->|Hin]; [contradiction|].
    destruct (Hsl i) as (ei & Hei); [now left|]. pose proof (Hok i ei Hei) as Hoki.
    assert (G : forall e0, (if isLive e0 then exists p, e_pay e0 = Val p else e_pay e0 = Raw) -> isLive e0 = false ->
      each (set_dead dtor ex kFreeHash [s]) slots (set_slot t l i e0) = Fault DoubleFree).
    { intros e0 He0 L0. apply (IH Hin (set_slot t l i e0) (upd l i e0) e p); auto.
      - intros j Hj. destruct (Nat.eq_dec i j) as [->|Hij].
        + exists e0. apply nth_error_upd_eq. eapply nth_lt; exact Hei.
        + rewrite nth_error_upd_ne by exact Hij. apply Hsl. now right.
      - intros j ej Hj. destruct (Nat.eq_dec i j) as [->|Hij].
        + rewrite nth_error_upd_eq in Hj by (eapply nth_lt; exact Hei). injection Hj as <-. exact He0.
        + rewrite nth_error_upd_ne in Hj by exact Hij. exact (Hok j ej Hj).
      - rewrite nth_error_upd_ne by exact Hne. exact He.
      - intros j ej q Hjs Hj Lj Hq. destruct (Nat.eq_dec i j) as [->|Hij].
        + rewrite nth_error_upd_eq in Hj by (eapply nth_lt; exact Hei). congruence.
        + rewrite nth_error_upd_ne in Hj by exact Hij. eauto. }
    destruct (isLive ei) eqn:Li.
    + destruct Hoki as (q & Hq). pose proof (Hoth i ei q Hne Hei Li Hq) as Hdq.
      rewrite (set_dead_ok Key Payload dtor ex kFreeHash [s] t l i ei q t l []); auto.
      * cbn [bind]. rewrite G by reflexivity. reflexivity.
      * intros [->|[]]. contradiction.
      * rewrite Hdq. apply Hex.
    + rewrite (set_dead_dead Key Payload dtor ex kFreeHash [s] t l i ei Ht Hei Li). cbn [bind]. rewrite G; [reflexivity| |reflexivity].
      unfold setHash. rewrite Hoki. reflexivity.
Qed.
Lemma nested_clear t l k p f : inv t l -> step hashf matches dflt c t (OFind k) = Ok (t, RFound p) ->
  dtor p = [HClear] -> (forall q, matches k q = false -> dtor q = []) ->
  exec hashf matches dflt c dtor (S (S f)) [] t [HRemove k] = Fault DoubleFree.
Proof.
  intros H E Hd Hoth. destruct (found_slot t l k p H E) as (s & e & Ef & He & L & Hp & Hm).
  pose proof (i_tbl _ _ _ _ _ _ _ _ H) as Ht. pose proof (inv_W _ _ _ _ _ _ _ _ H) as HW.
  assert (F : found t s = Ok true) by (unfold found; rewrite Ht; cbn [deref bind]; rewrite (slot_get_ok _ _ _ He); cbn; now rewrite L).
  assert (E1 : exec hashf matches dflt c dtor (S f) [s] t (dtor p) = Fault DoubleFree).
  { rewrite Hd. cbn [exec calls call]. unfold clear_all.
    rewrite (nested_clear_loop _ s _) with (l := l) (e := e) (p := p); auto.
    - apply in_seq. pose proof (nth_lt l s e He). rewrite (w_len _ _ _ HW) in *. lia.
    - intros i Hi. apply in_seq in Hi. destruct (nth_error l i) as [x|] eqn:Ex; [eauto|].
      apply nth_error_None in Ex. rewrite (w_len _ _ _ HW) in *. lia.
    - apply HW.
    - intros i ei q Hne Hei Li Hq. apply Hoth. destruct (matches k q) eqn:Hmq; [|reflexivity]. exfalso. apply Hne.
      pose proof (i_uniq _ _ _ _ _ _ _ _ H k) as HU.
      pose proof (kill_bag Payload l s e p 0 He L Hp ltac:(lia)) as HP.
      rewrite (Permutation_length (filter_perm (matches k) _ _ HP)) in HU. cbn [filter] in HU. rewrite Hm in HU. cbn [length] in HU.
      destruct (Nat.eq_dec i s) as [|Hne']; [assumption|].
      assert (Hq' : In q (filter (matches k) (bag (upd l s (Entry 0 Raw))))).
      { apply filter_In. split; [|exact Hmq]. unfold contents_l. apply in_flat_map. exists ei. split.
        - apply nth_error_In with i. rewrite nth_error_upd_ne by auto. exact Hei.
        - rewrite (pay_live _ ei q Li Hq). now left. }
      destruct (filter (matches k) (bag (upd l s (Entry 0 Raw)))); [destruct Hq'|cbn in HU; lia].
    - intros ds t'. destruct f; reflexivity. }
  change (exec hashf matches dflt c dtor (S (S f)) [] t [HRemove k]) with
    (calls hashf matches dflt c dtor (exec hashf matches dflt c dtor (S f)) [] t [HRemove k]).
  cbn [calls call]. unfold remove_key. rewrite Ef. cbn [bind]. rewrite F. cbn [bind].
  rewrite assert_true by reflexivity. cbn [bind]. unfold remove_entry. rewrite F. cbn [bind]. rewrite assert_true by reflexivity.
  unfold set_dead, destruct_at. rewrite Ht. cbn [deref bind]. rewrite (slot_get_ok _ _ _ He). cbn [bind]. rewrite L.
  cbn [existsb]. rewrite Hp, E1. reflexivity.
Qed.
End Wild.
