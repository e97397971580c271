(** From the heap invariant to client histories. *)
From Verif Require Import Base BitsProofs RefcountModel RefcountSpec RefcountProofs.

Definition same_heap (h h' : heap) : Prop :=
  length (objs h') = length (objs h) /\ log h' = log h /\
  forall o ob', nth_error (objs h') o = Some ob' ->
    exists ob, nth_error (objs h) o = Some ob /\ rc ob' = rc ob /\ st ob' = st ob.
Lemma same_refl h : same_heap h h.
Proof. split; [auto|]. split; [auto|]. eauto. Qed.
Lemma same_trans a b c : same_heap a b -> same_heap b c -> same_heap a c.
Proof.
  intros (L1 & G1 & N1) (L2 & G2 & N2). split; [congruence|]. split; [congruence|].
  intros o ob' H. destruct (N2 _ _ H) as (b1 & H1 & R1 & S1). destruct (N1 _ _ H1) as (b0 & H0 & R0 & S0).
  exists b0. repeat split; congruence.
Qed.
Lemma same_fwd h h' : same_heap h h' -> forall o ob, nth_error (objs h) o = Some ob ->
  exists ob', nth_error (objs h') o = Some ob' /\ rc ob' = rc ob /\ st ob' = st ob.
Proof.
  intros (L & _ & N) o ob H. destruct (nth_error (objs h') o) as [b|] eqn:E.
  - destruct (N _ _ E) as (b0 & H0 & X). exists b. split; [auto|]. congruence.
  - apply nth_error_None in E. assert (o < length (objs h)) by (apply nth_error_Some; congruence). lia.
Qed.
Lemma same_alive h h' o : same_heap h h' -> (halive h' o <-> halive h o).
Proof.
  intros S. split.
  - intros (b & Hb & Ab). destruct S as (_ & _ & N). destruct (N _ _ Hb) as (b0 & H0 & _ & S0). exists b0. split; congruence.
  - intros (b & Hb & Ab). destruct (same_fwd _ _ S _ _ Hb) as (b0 & H0 & _ & S0). exists b0. split; congruence.
Qed.

Lemma inv_same h h' E E' D nb : same_heap h h' ->
  (forall o, E' o + member_refs (objs h') o = E o + member_refs (objs h) o) -> inv h E D nb -> inv h' E' D nb.
Proof.
  intros S HE H. pose proof S as (L & G & N). split.
  - intros o ob Ho Ao. destruct (N _ _ Ho) as (b & Hb & Rb & Sb). rewrite HE, Rb. apply (i_rc _ _ _ _ H); congruence.
  - intros o Hp. rewrite HE in Hp. apply (same_alive _ _ _ S). now apply (i_tgt _ _ _ _ H).
  - intros o ob Ho Ao Z. destruct (N _ _ Ho) as (b & Hb & Rb & Sb). apply (i_pos _ _ _ _ H o b); congruence.
  - intros o. rewrite (i_dy _ _ _ _ H o). split.
    + intros (b & Hb & Db). destruct (same_fwd _ _ S _ _ Hb) as (b0 & H0 & _ & S0). exists b0. split; congruence.
    + intros (b & Hb & Db). destruct (N _ _ Hb) as (b0 & H0 & _ & S0). exists b0. split; congruence.
  - intros o. rewrite G, (i_dead _ _ _ _ H o). split.
    + intros (b & Hb & Db). destruct (same_fwd _ _ S _ _ Hb) as (b0 & H0 & _ & S0). exists b0. split; congruence.
    + intros (b & Hb & Db). destruct (N _ _ Hb) as (b0 & H0 & _ & S0). exists b0. split; congruence.
  - rewrite G. exact (i_nd _ _ _ _ H).
Qed.

(** AddRef after the new handle is in place. *)
Lemma addref_ok h0 h E0 E D nb q : inv h0 E0 D nb -> same_heap h0 h ->
  (forall o, E o + member_refs (objs h) o = E0 o + member_refs (objs h0) o + is_ref o q) ->
  (forall n, q = Some n -> halive h0 n) -> (nb = q \/ nb = None) ->
  exists h', AddRef h q = Ok h' /\ inv h' E D None /\ length (objs h') = length (objs h) /\
    forall i ob', nth_error (objs h') i = Some ob' -> exists ob, nth_error (objs h) i = Some ob /\ st ob' = st ob /\ flds ob' = flds ob.
Proof.
  intros H S HE Hq Hnb. destruct q as [n|]; cbn [AddRef].
  2: { exists h. split; [reflexivity|]. split; [|eauto]. assert (nb = None) as -> by tauto.
       eapply inv_same; eauto. intros o. rewrite HE. cbn. lia. }
  pose proof (Hq n eq_refl) as Hn. apply (same_alive _ _ _ S) in Hn as (ob & Hob & Aob).
  unfold obj_AddRef. rewrite (get_alive_ok _ _ _ Hob Aob). cbn [bind].
  assert (Hl : n < length (objs h)) by (apply nth_error_Some; congruence).
  eexists. split; [reflexivity|].
  set (h' := set_obj h n (Obj (Datatypes.S (rc ob)) Alive (flds ob))).
  assert (Hnth : forall i, nth_error (objs h') i = if n =? i then Some (Obj (Datatypes.S (rc ob)) Alive (flds ob)) else nth_error (objs h) i)
    by (intros i; now apply set_obj_nth).
  assert (Hm : forall x, member_refs (objs h') x = member_refs (objs h) x).
  { intros x. pose proof (member_refs_upd (objs h) n ob (Obj (Datatypes.S (rc ob)) Alive (flds ob)) x Hob) as X.
    unfold contrib in X. rewrite Aob in X. cbn [st flds] in X. unfold h', set_obj. cbn [objs]. lia. }
  pose proof S as (L & G & N).
  assert (Hback : forall x obx, nth_error (objs h) x = Some obx -> st obx = Alive -> rc obx = E0 x + member_refs (objs h0) x).
  { intros x obx Hx Ax. destruct (N _ _ Hx) as (b & Hb & Rb & Sb). rewrite Rb. apply (i_rc _ _ _ _ H); congruence. }
  split; [split|].
  - intros x obx Hx Ax. rewrite Hm, HE. rewrite Hnth in Hx. destruct (Nat.eqb_spec n x) as [<-|Hne].
    + injection Hx as <-. cbn [rc]. rewrite is_ref_refl, (Hback _ _ Hob Aob). lia.
    + rewrite is_ref_ne by auto. rewrite (Hback _ _ Hx Ax). lia.
  - intros x Hx. rewrite Hm, HE in Hx. unfold halive. rewrite Hnth. destruct (Nat.eqb_spec n x) as [<-|Hne].
    + eexists; split; reflexivity.
    + rewrite is_ref_ne in Hx by auto. apply (same_alive _ _ _ S). apply (i_tgt _ _ _ _ H). lia.
  - intros x obx Hx Ax Z. rewrite Hnth in Hx. destruct (Nat.eqb_spec n x) as [<-|Hne]; [injection Hx as <-; discriminate|].
    destruct (N _ _ Hx) as (b & Hb & Rb & Sb). assert (X : nb = Some x) by (apply (i_pos _ _ _ _ H x b); congruence).
    destruct Hnb; congruence.
  - intros x. rewrite (i_dy _ _ _ _ H x), Hnth. destruct (Nat.eqb_spec n x) as [<-|Hne].
    + split.
      * intros (b & Hb & Db). destruct (N _ _ Hob) as (b0 & H0 & _ & S0). congruence.
      * intros (b & Hb & Db). injection Hb as <-. discriminate.
    + split.
      * intros (b & Hb & Db). destruct (same_fwd _ _ S _ _ Hb) as (b0 & H0 & _ & S0). exists b0. split; congruence.
      * intros (b & Hb & Db). destruct (N _ _ Hb) as (b0 & H0 & _ & S0). exists b0. split; congruence.
  - intros x. change (log h') with (log h). rewrite G, (i_dead _ _ _ _ H x), Hnth. destruct (Nat.eqb_spec n x) as [<-|Hne].
    + split.
      * intros (b & Hb & Db). destruct (N _ _ Hob) as (b0 & H0 & _ & S0). congruence.
      * intros (b & Hb & Db). injection Hb as <-. discriminate.
    + split.
      * intros (b & Hb & Db). destruct (same_fwd _ _ S _ _ Hb) as (b0 & H0 & _ & S0). exists b0. split; congruence.
      * intros (b & Hb & Db). destruct (N _ _ Hb) as (b0 & H0 & _ & S0). exists b0. split; congruence.
  - change (log h') with (log h). rewrite G. exact (i_nd _ _ _ _ H).
  - split; [unfold h'; cbn; apply upd_length|]. intros i ob' Hi. rewrite Hnth in Hi. destruct (Nat.eqb_spec n i) as [<-|Hne]; [|eauto].
    injection Hi as <-. exists ob. cbn. auto.
Qed.

(** ** Places *)
Definition retag (w : var) (p : option nat) : var := match w with VRef _ => VRef p | VAl _ => VAl p | VRaw _ => VRaw p end.
Definition put (s : state) (l : loc) (p : option nat) : state :=
  match l with
  | LVar v => match nth_error (vars s) v with
              | Some (Some w) => State (hp s) (upd (vars s) v (Some (retag w p)))
              | _ => s
              end
  | LFld y j => match nth_error (objs (hp s)) y with
                | Some ob => State (wf y (upd (flds ob) j p) (hp s)) (vars s)
                | None => s
                end
  end.
Definition setv (s : state) (v : nat) (x : option var) : state := State (hp s) (upd (vars s) v x).
Definition sinv (s : state) (nb : option nat) : Prop := inv (hp s) (var_refs s) [] nb.

Lemma wf_same y fs h : same_heap h (wf y fs h).
Proof.
  split; [apply wf_len|]. split; [apply wf_log|]. intros o ob'. rewrite wf_nth.
  destruct (y =? o); [|eauto]. destruct (nth_error (objs h) o) as [b|]; cbn; [|discriminate].
  intros X. injection X as <-. exists b. auto.
Qed.
Lemma put_same s l p : same_heap (hp s) (hp (put s l p)).
Proof.
  destruct l as [v|y j]; cbn [put].
  - destruct (nth_error (vars s) v) as [[w|]|]; apply same_refl.
  - destruct (nth_error (objs (hp s)) y); [apply wf_same|apply same_refl].
Qed.
Lemma ptr_retag w p : ptr_of (retag w p) = p.
Proof. destruct w; reflexivity. Qed.

Lemma nth_upd_some {A} (l : list A) i x y k : nth_error l i = Some y ->
  nth_error (upd l i x) k = if i =? k then Some x else nth_error l k.
Proof.
  intros H. rewrite nth_error_upd. destruct (i =? k) eqn:E; cbn [andb]; [|reflexivity].
  assert (i < length l) by (apply nth_error_Some; congruence). destruct (Nat.ltb_spec i (length l)); [reflexivity|lia].
Qed.

Lemma put_content_eq s l p : content s l <> None -> content (put s l p) l = Some p.
Proof.
  destruct l as [v|y j]; cbn [content put].
  - destruct (nth_error (vars s) v) as [[w|]|] eqn:E; try congruence. intros _. cbn [vars].
    rewrite (nth_upd_some _ _ _ _ _ E), Nat.eqb_refl. now rewrite ptr_retag.
  - destruct (nth_error (objs (hp s)) y) as [ob|] eqn:E; try congruence. destruct (st ob) eqn:Sb; try congruence.
    intros Hj. cbn [hp]. rewrite wf_nth, Nat.eqb_refl, E. cbn. rewrite Sb.
    destruct (nth_error (flds ob) j) as [x|] eqn:Ej; [|congruence]. now rewrite (nth_upd_some _ _ _ _ _ Ej), Nat.eqb_refl.
Qed.
Lemma put_content_ne s l p m : l <> m -> content (put s l p) m = content s m.
Proof.
  intros Hne. destruct l as [v|y j]; cbn [put].
  - destruct (nth_error (vars s) v) as [[w|]|] eqn:E; try reflexivity. destruct m as [v'|y' j']; cbn [content vars hp]; [|reflexivity].
    rewrite (nth_upd_some _ _ _ _ _ E). destruct (Nat.eqb_spec v v'); congruence.
  - destruct (nth_error (objs (hp s)) y) as [ob|] eqn:E; try reflexivity. destruct m as [v'|y' j']; cbn [content vars hp]; [reflexivity|].
    rewrite wf_nth. destruct (Nat.eqb_spec y y') as [<-|]; [|reflexivity]. rewrite E. cbn. destruct (st ob); try reflexivity.
    apply nth_error_upd_ne. congruence.
Qed.
Lemma put_kind s l p v : kind (put s l p) v = kind s v.
Proof.
  destruct l as [w|y j]; cbn [put]; unfold kind.
  - destruct (nth_error (vars s) w) as [[x|]|] eqn:E; try reflexivity. cbn [vars].
    rewrite (nth_upd_some _ _ _ _ _ E). destruct (Nat.eqb_spec w v) as [<-|]; [|reflexivity]. rewrite E. destruct x; reflexivity.
  - destruct (nth_error (objs (hp s)) y); reflexivity.
Qed.
Lemma put_refptr s l p m : is_refptr s m -> is_refptr (put s l p) m.
Proof.
  destruct m as [v|y j]; cbn [is_refptr]; [now rewrite put_kind|].
  intros H. destruct l as [w|y' j'].
  - rewrite put_content_ne by discriminate. exact H.
  - destruct (Nat.eq_dec y' y) as [->|]; [|rewrite put_content_ne; congruence]. destruct (Nat.eq_dec j' j) as [->|].
    + rewrite put_content_eq by exact H. discriminate.
    + rewrite put_content_ne; congruence.
Qed.
Lemma put_unused s l p v : unused s v -> unused (put s l p) v.
Proof.
  unfold unused. intros H. destruct l as [w|y j]; cbn [put].
  - destruct (nth_error (vars s) w) as [[x|]|] eqn:E; try exact H. cbn [vars].
    rewrite (nth_upd_some _ _ _ _ _ E). destruct (Nat.eqb_spec w v) as [<-|]; [congruence|exact H].
  - destruct (nth_error (objs (hp s)) y); exact H.
Qed.

Lemma setv_refs s v x y o : nth_error (vars s) v = Some y ->
  var_refs (setv s v x) o + vcontrib y o = var_refs s o + vcontrib x o.
Proof. intros H. unfold var_refs. cbn [setv vars]. exact (sum_map_upd (fun z => vcontrib z o) (vars s) v x y H). Qed.
Lemma put_handles s l p q o : content s l = Some p -> handles (put s l q) o + is_ref o p = handles s o + is_ref o q.
Proof.
  unfold handles. destruct l as [v|y j]; cbn [content put].
  - destruct (nth_error (vars s) v) as [[w|]|] eqn:E; try congruence. intros X. injection X as <-.
    pose proof (setv_refs s v (Some (retag w q)) (Some w) o E) as X. cbn [vcontrib] in X. rewrite ptr_retag in X.
    unfold setv in X. cbn [hp]. lia.
  - destruct (nth_error (objs (hp s)) y) as [ob|] eqn:E; try congruence. destruct (st ob) eqn:Sb; try congruence.
    intros Hj. cbn [hp]. unfold var_refs at 1. cbn [vars]. fold (var_refs s o). unfold wf. rewrite E. cbn [set_obj objs].
    pose proof (member_refs_upd (objs (hp s)) y ob (Obj (rc ob) (st ob) (upd (flds ob) j q)) o E) as X.
    unfold contrib in X. cbn [st flds] in X. rewrite Sb in X.
    pose proof (sum_map_upd (is_ref o) (flds ob) j q p Hj) as Y. rewrite Sb. lia.
Qed.

Lemma refptr_content s l : is_refptr s l -> exists p, content s l = Some p.
Proof.
  destruct l as [v|y j]; cbn [is_refptr].
  - unfold kind, content. destruct (nth_error (vars s) v) as [[[p|p|p]|]|]; try discriminate. eauto.
  - destruct (content s (LFld y j)); eauto; congruence.
Qed.
Lemma read_ok s l p : is_refptr s l -> content s l = Some p -> read s l = Ok p.
Proof.
  destruct l as [v|y j]; cbn [is_refptr read content].
  - unfold kind, get_var, slot_get. destruct (nth_error (vars s) v) as [[[q|q|q]|]|]; try discriminate. cbn. intros _ X. now injection X as ->.
  - intros _. destruct (nth_error (objs (hp s)) y) as [ob|] eqn:E; try discriminate. destruct (st ob) eqn:Sb; try discriminate.
    intros Hj. rewrite (get_alive_ok _ _ _ E Sb). cbn [bind]. now apply slot_get_ok.
Qed.
Lemma write_ok s l q : is_refptr s l -> write s l q = Ok (put s l q).
Proof.
  destruct l as [v|y j]; cbn [is_refptr write put].
  - unfold kind, get_var, set_var, slot_get. destruct (nth_error (vars s) v) as [[[p|p|p]|]|] eqn:E; try discriminate. intros _. cbn [bind].
    rewrite slot_set_ok by (apply nth_error_Some; congruence). reflexivity.
  - cbn [content]. destruct (nth_error (objs (hp s)) y) as [ob|] eqn:E; try congruence. destruct (st ob) eqn:Sb; try congruence.
    intros Hj. rewrite (get_alive_ok _ _ _ E Sb). cbn [bind].
    rewrite slot_set_ok by (now apply nth_error_Some). cbn [bind]. unfold wf. rewrite E, Sb. reflexivity.
Qed.
Lemma put_put s l p q : content s l <> None -> put (put s l p) l q = put s l q.
Proof.
  destruct l as [v|y j]; cbn [content put].
  - destruct (nth_error (vars s) v) as [[w|]|] eqn:E; try congruence. intros _. cbn [vars hp].
    rewrite (nth_upd_some _ _ _ _ _ E), Nat.eqb_refl. f_equal. apply nth_ext_list. intros i.
    assert (E2 : nth_error (upd (vars s) v (Some (retag w p))) v = Some (Some (retag w p))) by (rewrite (nth_upd_some _ _ _ _ _ E), Nat.eqb_refl; reflexivity).
    rewrite (nth_upd_some _ _ _ _ _ E2), !(nth_upd_some _ _ _ _ _ E). destruct (v =? i); [|reflexivity]. destruct w; reflexivity.
  - destruct (nth_error (objs (hp s)) y) as [ob|] eqn:E; try congruence. destruct (st ob) eqn:Sb; try congruence.
    intros Hj. cbn [vars hp]. rewrite wf_nth, Nat.eqb_refl, E. cbn [option_map flds]. f_equal. apply heap_ext; [|now rewrite !wf_log].
    intros i. rewrite !wf_nth. destruct (Nat.eqb_spec y i) as [<-|]; [|reflexivity]. rewrite E. cbn. do 2 f_equal.
    destruct (nth_error (flds ob) j) as [x|] eqn:Ej; [|congruence]. apply nth_ext_list. intros k.
    assert (E2 : nth_error (upd (flds ob) j p) j = Some p) by (rewrite (nth_upd_some _ _ _ _ _ Ej), Nat.eqb_refl; reflexivity).
    rewrite (nth_upd_some _ _ _ _ _ E2), !(nth_upd_some _ _ _ _ _ Ej). destruct (j =? k); reflexivity.
Qed.

(** A handle keeps its object alive. *)
Lemma content_handles s l o : content s l = Some (Some o) -> 0 < handles s o.
Proof.
  unfold handles. destruct l as [v|y j]; cbn [content].
  - destruct (nth_error (vars s) v) as [[w|]|] eqn:E; try congruence. intros X. injection X as X.
    apply nth_error_In in E. unfold var_refs.
    pose proof (sum_ge (fun x => match x with Some w => is_ref o (ptr_of w) | None => 0 end) _ _ E) as Y. cbv beta iota in Y.
    rewrite X, is_ref_refl in Y. lia.
  - destruct (nth_error (objs (hp s)) y) as [ob|] eqn:E; try congruence. destruct (st ob) eqn:Sb; try congruence.
    intros Hj. apply nth_error_In in E, Hj. unfold member_refs.
    pose proof (sum_ge (fun ob => match st ob with Alive => sum (map (is_ref o) (flds ob)) | _ => 0 end) _ _ E) as Y. cbv beta in Y.
    rewrite Sb in Y. pose proof (sum_ge (is_ref o) _ _ Hj) as Z. rewrite is_ref_refl in Z. lia.
Qed.
Lemma content_alive s nb l o : sinv s nb -> content s l = Some (Some o) -> halive (hp s) o.
Proof. intros H C. apply (i_tgt _ _ _ _ H). exact (content_handles _ _ _ C). Qed.
Lemma reach_alive s nb x o : sinv s nb -> reach s x o -> halive (hp s) o.
Proof. intros H [v o' _ C|y j o' _ _ C]; eapply content_alive; eauto. Qed.

(** Contents kept by a release. *)
Lemma mono_content h h' vs y j : mono h h' -> halive h' y ->
  content (State h' vs) (LFld y j) = content (State h vs) (LFld y j).
Proof.
  intros (_ & _ & F) (b & Hb & Ab). destruct (F _ _ Hb Ab) as (b0 & H0 & A0 & E0). cbn. rewrite Hb, H0, Ab, A0. now rewrite E0.
Qed.
Lemma mono_reach s s0 l h nb : (forall m, l <> m -> content s0 m = content s m) -> mono (hp s0) h ->
  sinv (State h (vars s0)) nb -> forall y, reach s l y -> halive h y.
Proof.
  intros Hc HM HI y Hr. induction Hr as [v o Hne C|y j o Hr IH Hne C].
  - apply (content_alive (State h (vars s0)) nb (LVar v) o HI). rewrite <- Hc in C by auto. exact C.
  - apply (content_alive (State h (vars s0)) nb (LFld y j) o HI). rewrite <- Hc in C by auto.
    rewrite (mono_content (hp s0)); auto.
Qed.

Lemma release_loc debug s l p nb : sinv s nb -> match l with LVar _ => True | LFld y _ => reach s l y end -> content s l = Some p ->
  exists h', Release debug (hp s) p = Ok h' /\
    content (State h' (vars s)) l = Some p /\
    sinv (put (State h' (vars s)) l None) nb /\ mono (hp s) h' /\ (forall y, reach s l y -> halive h' y).
Proof.
  intros H Hsec Hc. destruct p as [o|]; cbn [Release].
  2: { exists (hp s). split; [reflexivity|]. assert (Es : State (hp s) (vars s) = s) by (destruct s; reflexivity). rewrite Es.
       split; [exact Hc|]. split.
       - eapply inv_same; [apply put_same| |exact H]. intros x. fold (handles s x). fold (handles (put s l None) x).
         pose proof (put_handles s l None None x Hc). lia.
       - split; [apply mono_refl|]. intros y. eapply reach_alive; eauto. }
  set (s0 := put s l None).
  assert (H0 : inv (hp s0) (fun x => var_refs s0 x + is_ref x (Some o)) [] nb).
  { eapply inv_same; [apply put_same| |exact H]. intros x. pose proof (put_handles s l (Some o) None x Hc) as X.
    unfold handles in X. fold s0 in X. cbn [is_ref] in *. lia. }
  assert (Hl0 : length (objs (hp s0)) = length (objs (hp s))) by apply put_same.
  destruct (release_ok debug (S (length (objs (hp s)))) (hp s0) (var_refs s0) o [] nb H0) as (h0 & E0 & I0 & M0).
  { pose proof (nalive_le (objs (hp s0))). lia. }
  assert (Hreach : forall y, reach s l y -> halive h0 y).
  { apply (mono_reach s s0 l h0 nb); auto. intros m Hne. unfold s0. now apply put_content_ne. }
  destruct l as [v|y j].
  - cbn [content] in Hc. destruct (nth_error (vars s) v) as [[w|]|] eqn:Ev; try discriminate.
    assert (Es0 : s0 = State (hp s) (upd (vars s) v (Some (retag w None)))) by (unfold s0, put; now rewrite Ev).
    exists h0. rewrite Es0 in E0, M0, I0. cbn [hp] in E0, M0. split; [exact E0|].
    split; [cbn [content vars]; now rewrite Ev|].
    split; [|split; [exact M0|exact Hreach]].
    unfold put. cbn [vars]. rewrite Ev. exact I0.
  - cbn [content] in Hc. destruct (nth_error (objs (hp s)) y) as [ob|] eqn:Ey; try discriminate. destruct (st ob) eqn:Sy; try discriminate.
    assert (Es0 : s0 = State (wf y (upd (flds ob) j None) (hp s)) (vars s)) by (unfold s0, put; now rewrite Ey).
    pose proof (Hreach y Hsec) as Hy0.
    pose proof (release_sim debug y (flds ob) _ _ _ _ E0 Hy0) as E1.
    assert (Ew : wf y (flds ob) (hp s0) = hp s).
    { rewrite Es0. cbn [hp]. apply heap_ext; [|now rewrite !wf_log]. intros i. rewrite !wf_nth.
      destruct (Nat.eqb_spec y i) as [<-|]; [|reflexivity]. rewrite Ey. cbn. destruct ob; reflexivity. }
    rewrite Ew in E1. exists (wf y (flds ob) h0). split; [exact E1|].
    destruct Hy0 as (b & Hb & Ab). destruct M0 as (L0 & N0 & F0). destruct (F0 _ _ Hb Ab) as (b0 & Hb0 & _ & Ef).
    rewrite Es0 in Hb0. cbn [hp] in Hb0. rewrite wf_nth, Nat.eqb_refl, Ey in Hb0. cbn in Hb0. injection Hb0 as <-. cbn in Ef.
    assert (Hnth : nth_error (objs (wf y (flds ob) h0)) y = Some (Obj (rc b) (st b) (flds ob))).
    { rewrite wf_nth, Nat.eqb_refl, Hb. reflexivity. }
    assert (Hcont : content (State (wf y (flds ob) h0) (vars s)) (LFld y j) = Some (Some o)).
    { cbn [content hp]. rewrite Hnth. cbn [st flds]. now rewrite Ab. }
    split; [exact Hcont|].
    split; [|split].
    + unfold put. cbn [hp vars]. rewrite Hnth. cbn [flds]. unfold sinv. cbn [hp].
      assert (Eh : wf y (upd (flds ob) j None) (wf y (flds ob) h0) = h0).
      { apply heap_ext; [|now rewrite !wf_log]. intros i. rewrite !wf_nth. destruct (Nat.eqb_spec y i) as [<-|]; [|reflexivity].
        rewrite Hb. cbn. rewrite Ef. destruct b; reflexivity. }
      rewrite Eh. rewrite Es0 in I0. exact I0.
    + split; [rewrite wf_len; lia|]. split.
      * assert (Hna : forall z fs h, nalive (objs (wf z fs h)) = nalive (objs h)).
        { intros z fs h. unfold wf. destruct (nth_error (objs h) z) as [bz|] eqn:Ez; [|reflexivity]. cbn [set_obj objs].
          pose proof (nalive_upd (objs h) z bz (Obj (rc bz) (st bz) fs) Ez) as X. cbn [st] in X. lia. }
        rewrite Hna. rewrite Es0 in N0. cbn [hp] in N0. rewrite Hna in N0. exact N0.
      * intros i ob' Hi Ai. rewrite wf_nth in Hi. destruct (Nat.eqb_spec y i) as [<-|Hne].
        -- rewrite Hb in Hi. cbn in Hi. injection Hi as <-. exists ob. auto.
        -- destruct (F0 _ _ Hi Ai) as (b1 & H1 & A1 & E2). rewrite Es0 in H1. cbn [hp] in H1. rewrite wf_nth in H1.
           destruct (Nat.eqb_spec y i); [contradiction|]. eauto.
    + intros z Hz. apply (same_alive _ _ _ (wf_same y (flds ob) h0)). now apply Hreach.
Qed.

(** ** One step *)
Lemma same_sym h h' : same_heap h h' -> same_heap h' h.
Proof.
  intros S. pose proof S as (L & G & N). split; [auto|]. split; [auto|]. intros o ob Ho.
  destruct (same_fwd _ _ S _ _ Ho) as (b & Hb & X & Y). exists b. auto.
Qed.
Lemma sinv_same s s' nb : same_heap (hp s) (hp s') -> (forall o, handles s' o = handles s o) -> sinv s nb -> sinv s' nb.
Proof. intros S HE H. eapply inv_same; eauto. Qed.

Lemma setv_handles s v x y o : nth_error (vars s) v = Some y -> handles (setv s v x) o + vcontrib y o = handles s o + vcontrib x o.
Proof. intros H. unfold handles. pose proof (setv_refs s v x y o H). cbn [setv hp]. lia. Qed.
Lemma setv_content s v x y l : nth_error (vars s) v = Some y ->
  content (setv s v x) l = if loc_eqb (LVar v) l then option_map ptr_of x else content s l.
Proof.
  intros H. destruct l as [w|y' j]; cbn [loc_eqb content setv vars hp]; [|reflexivity].
  rewrite (nth_upd_some _ _ _ _ _ H). destruct (v =? w); [destruct x; reflexivity|reflexivity].
Qed.
Lemma loc_eqb_spec a b : reflect (a = b) (loc_eqb a b).
Proof.
  destruct a as [i|y i], b as [j|z j]; cbn; try (constructor; congruence).
  - destruct (Nat.eqb_spec i j); constructor; congruence.
  - destruct (Nat.eqb_spec y z), (Nat.eqb_spec i j); cbn; constructor; congruence.
Qed.
Lemma loc_eqb_refl a : loc_eqb a a = true.
Proof. destruct (loc_eqb_spec a a); congruence. Qed.
Lemma loc_eqb_ne a b : a <> b -> loc_eqb a b = false.
Proof. destruct (loc_eqb_spec a b); congruence. Qed.

Lemma new_var_ok s v x : unused s v -> new_var s v x = Ok (setv s v (Some x)).
Proof.
  intros H. unfold new_var, set_var. rewrite (slot_get_ok _ _ _ H). cbn [bind].
  rewrite slot_set_ok by (apply nth_error_Some; unfold unused in H; congruence). reflexivity.
Qed.
Lemma set_var_ok s v x y : nth_error (vars s) v = Some y -> set_var s v x = Ok (setv s v x).
Proof. intros H. unfold set_var. rewrite slot_set_ok by (apply nth_error_Some; congruence). reflexivity. Qed.
Lemma kind_inv s w k : kind s w = Some k ->
  exists x, nth_error (vars s) w = Some (Some x) /\ k = match x with VRef _ => 0 | VAl _ => 1 | VRaw _ => 2 end.
Proof. unfold kind. destruct (nth_error (vars s) w) as [[[p|p|p]|]|]; intros E; try discriminate; injection E as <-; eauto. Qed.
Lemma kind1 s w : kind s w = Some 1 -> exists p, nth_error (vars s) w = Some (Some (VAl p)) /\ get_al s w = Ok p /\ content s (LVar w) = Some p.
Proof.
  intros H. apply kind_inv in H as ([p|p|p] & E & K); try discriminate. exists p. split; [exact E|].
  unfold get_al, get_var, slot_get. cbn [content]. rewrite E. auto.
Qed.
Lemma kind2 s w : kind s w = Some 2 -> exists p, nth_error (vars s) w = Some (Some (VRaw p)) /\ get_raw s w = Ok p /\ content s (LVar w) = Some p.
Proof.
  intros H. apply kind_inv in H as ([p|p|p] & E & K); try discriminate. exists p. split; [exact E|].
  unfold get_raw, get_var, slot_get. cbn [content]. rewrite E. auto.
Qed.
Lemma refptr_ne_unused s v l : unused s v -> is_refptr s l -> l <> LVar v.
Proof. unfold unused. intros H R ->. cbn in R. unfold kind in R. rewrite H in R. discriminate. Qed.
Lemma setv_refptr s v x l : l <> LVar v -> is_refptr s l -> is_refptr (setv s v x) l.
Proof.
  destruct l as [w|y j]; cbn [is_refptr].
  - intros Hne. unfold kind. cbn [setv vars]. rewrite nth_error_upd_ne; [auto|congruence].
  - intros _. cbn [content setv hp]. auto.
Qed.
Lemma heap_refptr s h l : match l with LVar _ => True | LFld _ _ => content (State h (vars s)) l <> None end ->
  is_refptr s l -> is_refptr (State h (vars s)) l.
Proof. destruct l; cbn [is_refptr]; auto. Qed.
(** Heaps with the same states and members give the same contents. *)
Lemma flds_content h h' vs : length (objs h') = length (objs h) ->
  (forall i ob', nth_error (objs h') i = Some ob' -> exists ob, nth_error (objs h) i = Some ob /\ st ob' = st ob /\ flds ob' = flds ob) ->
  forall l, content (State h' vs) l = content (State h vs) l.
Proof.
  intros L F [v|y j]; cbn [content hp vars]; [reflexivity|].
  destruct (nth_error (objs h') y) as [b'|] eqn:E.
  - destruct (F _ _ E) as (b & -> & -> & ->). reflexivity.
  - destruct (nth_error (objs h) y) as [b|] eqn:E2; [|reflexivity]. apply nth_error_None in E.
    assert (y < length (objs h)) by (apply nth_error_Some; congruence). lia.
Qed.
Lemma flds_alive h h' y : 
  (forall i ob', nth_error (objs h') i = Some ob' -> exists ob, nth_error (objs h) i = Some ob /\ st ob' = st ob /\ flds ob' = flds ob) ->
  halive h' y -> halive h y.
Proof. intros F (b & Hb & Ab). destruct (F _ _ Hb) as (b0 & H0 & S0 & _). exists b0. split; congruence. Qed.

Lemma newborn_kept debug n b : forall fuel h o m, obj_Release debug fuel h o = Ok m ->
  nth_error (objs h) n = Some b -> st b = Alive -> rc b = 0 -> nth_error (objs m) n = Some b.
Proof.
  induction fuel as [|f IH]; intros h o m E Hn An Rn; [discriminate|]. cbn [obj_Release] in E.
  destruct (get_alive h o) as [ob| |] eqn:G; cbn [bind] in E; try discriminate. apply get_alive_inv in G as [Hob Aob].
  assert (Ho : o < length (objs h)) by (apply nth_error_Some; congruence).
  destruct (assert_ debug (0 <? rc ob)); cbn [bind] in E; try discriminate.
  destruct (rc ob) as [|[|k]] eqn:Er.
  - injection E as <-. exact Hn.
  - assert (Hne : o <> n) by (intros ->; rewrite Hn in Hob; injection Hob as ->; congruence).
    destruct (release_list _ _ _) as [h2| |] eqn:L; cbn [bind] in E; try discriminate.
    assert (G : forall ps h1 h2, release_list (obj_Release debug f) h1 ps = Ok h2 -> nth_error (objs h1) n = Some b -> nth_error (objs h2) n = Some b).
    { clear - IH An Rn. induction ps as [|[q|] ps IHp]; intros h1 h2 L Hn; cbn [release_list] in L.
      - now injection L as <-.
      - destruct (obj_Release debug f h1 q) as [h3| |] eqn:R; cbn [bind] in L; try discriminate. eauto.
      - eauto. }
    apply (G _ _ _) in L.
    + apply finish_inv in E as (b2 & H2 & S2 & ->). cbn [objs]. rewrite nth_error_upd_ne; auto.
    + cbn [set_obj objs]. rewrite nth_error_upd_ne; auto.
  - injection E as <-. cbn [set_obj objs]. rewrite nth_error_upd_ne; [exact Hn|]. intros ->. rewrite Hn in Hob. injection Hob as ->. congruence.
Qed.

Lemma alloc_ok s k : sinv s None ->
  let n := length (objs (hp s)) in let s1 := fst (alloc s k) in
  sinv s1 (Some n) /\ nth_error (objs (hp s1)) n = Some (Obj 0 Alive (repeat None k)) /\
  (forall l, match l with LVar _ => True | LFld y _ => created s y end -> content s1 l = content s l).
Proof.
  intros H n s1.
  assert (Hn : nth_error (objs (hp s1)) n = Some (Obj 0 Alive (repeat None k))).
  { cbn. rewrite nth_error_app2 by (unfold n; lia). unfold n. now rewrite Nat.sub_diag. }
  assert (Ho : forall i, i < n -> nth_error (objs (hp s1)) i = nth_error (objs (hp s)) i) by (intros i Hi; cbn; now apply nth_error_app1).
  assert (Hlt : forall i b, nth_error (objs (hp s1)) i = Some b -> i < n \/ (i = n /\ b = Obj 0 Alive (repeat None k))).
  { intros i b Hi. assert (X : i < length (objs (hp s1))) by (apply nth_error_Some; congruence). cbn in X. rewrite app_length in X. cbn in X.
    destruct (Nat.eq_dec i n) as [->|]; [right; split; congruence|left; unfold n in *; lia]. }
  assert (Hm : forall x, member_refs (objs (hp s1)) x = member_refs (objs (hp s)) x).
  { intros x. change (objs (hp s1)) with (objs (hp s) ++ [Obj 0 Alive (repeat None k)]). rewrite member_refs_app. unfold contrib. cbn [st flds].
    assert (Z : sum (map (is_ref x) (repeat None k)) = 0) by (clear; induction k; cbn; auto). lia. }
  assert (Hz : var_refs s n + member_refs (objs (hp s)) n = 0).
  { destruct (Nat.eq_dec (var_refs s n + member_refs (objs (hp s)) n) 0) as [|Hne]; [auto|].
    destruct (i_tgt _ _ _ _ H n) as (b & Hb & _); [lia|]. assert (n < length (objs (hp s))) by (apply nth_error_Some; congruence). unfold n in *. lia. }
  split; [split|split; [exact Hn|]].
  - intros x b Hx Ax. change (var_refs s1 x) with (var_refs s x). rewrite Hm. destruct (Hlt _ _ Hx) as [L|[-> ->]].
    + rewrite Ho in Hx by auto. exact (i_rc _ _ _ _ H _ _ Hx Ax).
    + cbn [rc]. lia.
  - intros x Hx. change (var_refs s1 x) with (var_refs s x) in Hx. rewrite Hm in Hx. destruct (i_tgt _ _ _ _ H x Hx) as (b & Hb & Ab).
    exists b. split; [|auto]. rewrite Ho; [exact Hb|]. apply nth_error_Some. congruence.
  - intros x b Hx Ax Z. destruct (Hlt _ _ Hx) as [L|[-> ->]]; [|reflexivity].
    rewrite Ho in Hx by auto. pose proof (i_pos _ _ _ _ H x b Hx Ax Z). discriminate.
  - intros x. rewrite (i_dy _ _ _ _ H x). split; intros (b & Hb & Db).
    + exists b. split; [|auto]. rewrite Ho; [exact Hb|]. apply nth_error_Some. congruence.
    + destruct (Hlt _ _ Hb) as [L|[-> ->]]; [|discriminate]. rewrite Ho in Hb by auto. eauto.
  - intros x. change (log (hp s1)) with (log (hp s)). rewrite (i_dead _ _ _ _ H x). split; intros (b & Hb & Db).
    + exists b. split; [|auto]. rewrite Ho; [exact Hb|]. apply nth_error_Some. congruence.
    + destruct (Hlt _ _ Hb) as [L|[-> ->]]; [|discriminate]. rewrite Ho in Hb by auto. eauto.
  - exact (i_nd _ _ _ _ H).
  - intros [v|y j] Hl; [reflexivity|]. cbn [content]. rewrite Ho by exact Hl. reflexivity.
Qed.
