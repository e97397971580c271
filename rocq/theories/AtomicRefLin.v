(** Linearizability of AtomicRef. *)
From Verif Require Import Base AtomicRefModel AtomicRefSpec AtomicRefProofs AtomicRefStep.
Local Open Scope N_scope.

Lemma reg_app v es1 v1 : reg v es1 v1 -> forall es2 v2, reg v1 es2 v2 -> reg v (es1 ++ es2) v2.
Proof. induction 1; intros es2 v2 H2; cbn [app]; auto; constructor; auto. Qed.
Lemma alt_app t p es1 q : alternates t p es1 q -> forall es2 r, alternates t q es2 r -> alternates t p (es1 ++ es2) r.
Proof. induction 1; intros es2 r' H2; cbn [app]; auto; [apply alt_inv|apply alt_pt|apply alt_res|apply alt_other]; auto. Qed.
Lemma visible_app c es1 es2 : visible c (es1 ++ es2) = visible c es1 ++ visible c es2.
Proof. induction es1 as [|[] es1 IH]; cbn; auto; now rewrite IH. Qed.

Section Lin.
Variable vt : variant.
Variable debug : bool.

Definition phase_of (c : nat) (p : pc) : phase :=
  match p with
  | LkLoad d o | LkCas d o _ => if Nat.eqb d c then PInv o else PIdle
  | CritAdd d o v | UnA d o v | UnB d o v _ | UnStore d o v =>
      if Nat.eqb d c then match o with OGet => PDone OGet v | OSet q => PInv (OSet q) end else PIdle
  | RelSub _ (Some (d, q)) | RelAssert _ (Some (d, q)) | RelDel _ (Some (d, q)) => if Nat.eqb d c then PDone (OSet q) 0 else PIdle
  | _ => PIdle
  end.
Definition phase_at (c : nat) (s : state) (t : nat) : phase :=
  match nth_error (threads s) t with Some th => phase_of c (tpc th) | None => PIdle end.

Lemma setpc_inv s t p l s' : setpc s t p l = Ok s' -> s' = State (hp s) (cells s) (upd (threads s) t (Thread p l)) (fresh s) (deleted s).
Proof. unfold setpc, slot_set. destruct (Nat.ltb t (length (threads s))); cbn [bind]; intros X; congruence. Qed.
Lemma setcell_inv s c x s' : setcell s c x = Ok s' -> s' = State (hp s) (upd (cells s) c x) (threads s) (fresh s) (deleted s).
Proof. unfold setcell, slot_set. destruct (Nat.ltb c (length (cells s))); cbn [bind]; intros X; congruence. Qed.
Lemma load_inv s c w : load s c = Ok w -> nth_error (cells s) c = Some (CLive w).
Proof. unfold load, slot_get. destruct (nth_error (cells s) c) as [[| |w']|]; cbn [bind]; congruence. Qed.

Definition belongs (t : nat) (e : levent) : Prop := match e with LInv u _ | LRes u _ _ | LPt u _ _ => u = t end.
Lemma others_alt t u p es : u <> t -> Forall (belongs t) es -> alternates u p es p.
Proof. intros Hu H. induction H as [|e es He H IH]; [constructor|]. apply alt_other; [|exact IH]. destruct e; cbn in *; congruence. Qed.

(** What one step contributes. *)
Definition contributes (c : nat) (s s1 : state) (o : list obs) (w : N) : Prop :=
  exists es w1, nth_error (cells s1) c = Some (CLive w1) /\ visible c es = filter (on_cell c) o /\
    reg (untagged w) es (untagged w1) /\ forall t, alternates t (phase_at c s t) es (phase_at c s1 t).

Lemma contrib c s s1 t p l p' l' o w es w1 : nth_error (threads s) t = Some (Thread p l) ->
  threads s1 = upd (threads s) t (Thread p' l') ->
  nth_error (cells s1) c = Some (CLive w1) -> visible c es = filter (on_cell c) o -> reg (untagged w) es (untagged w1) ->
  Forall (belongs t) es -> alternates t (phase_of c p) es (phase_of c p') -> contributes c s s1 o w.
Proof.
  intros H Ht Hc Hv Hr Hb Ha. exists es, w1. repeat (split; [assumption|]). intros u. unfold phase_at. rewrite Ht.
  destruct (Nat.eq_dec t u) as [<-|Hne].
  - rewrite nth_error_upd_eq by (apply nth_error_Some; congruence). rewrite H. exact Ha.
  - rewrite nth_error_upd_ne by auto. apply (others_alt t); auto.
Qed.

(** A step that neither changes the cell nor reports on it, nor changes the phase. *)
Lemma silent c s s1 t p l p' l' o w : nth_error (threads s) t = Some (Thread p l) ->
  threads s1 = upd (threads s) t (Thread p' l') -> nth_error (cells s1) c = Some (CLive w) ->
  filter (on_cell c) o = [] -> phase_of c p' = phase_of c p -> contributes c s s1 o w.
Proof.
  intros H Ht Hc Ho Hp. apply (contrib c s s1 t p l p' l' o w [] w); auto; [constructor|]. rewrite Hp. constructor.
Qed.

Ltac sil H Hc := eapply silent; [exact H|reflexivity|exact Hc|try reflexivity|try reflexivity].
Ltac binv E := repeat match type of E with
  | bind ?x _ = Ok _ => let Q := fresh "Q" in destruct x eqn:Q; cbn [bind] in E; try discriminate
  end.
Ltac invs := repeat match goal with
  | Q : setpc _ _ _ _ = Ok _ |- _ => apply setpc_inv in Q; subst
  | Q : setcell _ _ _ = Ok _ |- _ => apply setcell_inv in Q; subst
  | Q : load _ _ = Ok _ |- _ => apply load_inv in Q
  end.

Lemma finish_filter c t k : filter (on_cell c) (finish t k) = match k with Some (d, q) => if Nat.eqb d c then [Res t c (OSet q) 0] else [] | None => [] end.
Proof. destruct k as [[d q]|]; cbn; [|reflexivity]. destruct (Nat.eqb_spec d c) as [->|]; reflexivity. Qed.
(** The last step of a Release. *)
Lemma release_end c s s1 t p l l' a k w : nth_error (threads s) t = Some (Thread p l) -> (p = RelSub a k \/ p = RelDel a k) ->
  threads s1 = upd (threads s) t (Thread Idle l') -> nth_error (cells s1) c = Some (CLive w) -> contributes c s s1 (finish t k) w.
Proof.
  intros H Hp Ht Hc. assert (E : phase_of c p = phase_of c (RelSub a k)) by (destruct Hp as [->| ->]; reflexivity).
  destruct k as [[d q]|].
  - destruct (Nat.eqb_spec d c) as [->|Hne].
    + eapply (contrib c s s1 t p l Idle l' _ w [LRes t (OSet q) 0] w); eauto.
      * rewrite finish_filter, Nat.eqb_refl. reflexivity.
      * repeat constructor.
      * repeat constructor.
      * rewrite E. cbn. rewrite Nat.eqb_refl. constructor. constructor.
    + eapply (silent c s s1 t p l Idle l'); eauto.
      * rewrite finish_filter. apply Nat.eqb_neq in Hne. now rewrite Hne.
      * rewrite E. cbn. apply Nat.eqb_neq in Hne. now rewrite Hne.
  - eapply (silent c s s1 t p l Idle l'); eauto.
Qed.
Lemma phase_enter d c o v : phase_of c (enter d o v) = phase_of c (UnA d o v).
Proof. unfold enter. destruct (target o v =? 0); reflexivity. Qed.

Lemma cont_lin s t p l s1 o c w : inv vt s -> nth_error (threads s) t = Some (Thread p l) -> nth_error (cells s) c = Some (CLive w) ->
  cont vt debug s t p l = Ok (s1, o) -> contributes c s s1 o w.
Proof.
  intros I H Hc E. pose proof (i_thr vt s I t _ H) as T. cbn [tpc held] in T. assert (Hlt : (c < length (cells s))%nat) by (apply nth_error_Some; congruence).
  destruct p as [|a|a|a k|a k|a k|d op|d op old|d op v|d op v|d op v x|d op v|d q|z]; cbn [cont thread_ok] in *; [discriminate| | | | | | | | | | | | |].
  - binv E. injection E as <- <-. invs. sil H Hc.
  - binv E. injection E as <- <-. invs. sil H Hc.
  - destruct (hp s a) as [ob|]; [|discriminate]. destruct (Nat.eqb _ _); binv E; injection E as <- <-; invs.
    + sil H Hc.
    + eapply release_end; [exact H|auto|reflexivity|exact Hc].
  - destruct (hp s a) as [ob|]; [|discriminate]. binv E. injection E as <- <-. invs. destruct vt; sil H Hc.
  - destruct (hp s a) as [ob|]; [|discriminate]. binv E. injection E as <- <-. invs. eapply release_end; [exact H|auto|reflexivity|exact Hc].
  - binv E. injection E as <- <-. invs. sil H Hc.
  - (* LkCas *)
    destruct T as (_ & _ & Eo). binv E. rename a into w'. destruct (N.eqb_spec w' old) as [->|Hne]; binv E; injection E as <- <-; invs.
    + destruct (Nat.eq_dec d c) as [->|Hdc].
      * assert (w = old) as -> by congruence.
        assert (Hc1 : nth_error (upd (cells s) c (CLive (tagged old))) c = Some (CLive (tagged old))) by (now apply nth_error_upd_eq).
        destruct op as [|q].
        -- eapply (contrib c s _ t _ l (enter c OGet old) l [] old [LPt t OGet old] (tagged old) H); [reflexivity|exact Hc1|reflexivity| | |].
           ++ rewrite untagged_tagged, (untagged_even old Eo). repeat constructor.
           ++ repeat constructor.
           ++ rewrite phase_enter. cbn. rewrite Nat.eqb_refl. repeat constructor.
        -- eapply (contrib c s _ t _ l (enter c (OSet q) old) l [] old [] (tagged old) H); [reflexivity|exact Hc1|reflexivity| | |].
           ++ rewrite untagged_tagged. constructor.
           ++ constructor.
           ++ rewrite phase_enter. cbn. rewrite Nat.eqb_refl. constructor.
      * eapply (silent c s _ t _ l _ l [] w H); [reflexivity| |reflexivity|].
        -- cbn [cells]. now rewrite nth_error_upd_ne.
        -- rewrite phase_enter. cbn. apply Nat.eqb_neq in Hdc. now rewrite Hdc.
    + sil H Hc.
  - binv E. injection E as <- <-. invs. sil H Hc.
  - binv E. injection E as <- <-. invs. sil H Hc.
  - binv E. injection E as <- <-. invs. sil H Hc.
  - (* UnStore *)
    destruct T as [[Hd Ev] Ho]. pose proof (target_even vt s t _ l op I H Ho v d (conj Hd Ev)) as Et.
    binv E. invs. destruct (Nat.eq_dec d c) as [->|Hdc].
    + assert (w = tagged v) as -> by congruence.
      assert (Hc1 : nth_error (upd (cells s) c (CLive (target op v))) c = Some (CLive (target op v))) by (now apply nth_error_upd_eq).
      destruct op as [|q]; cbn [target] in *.
      * binv E. injection E as <- <-. invs. eapply (contrib c s _ t _ l Idle _ _ _ [LRes t OGet v] v H); [reflexivity|exact Hc1| | | |].
        -- cbn. rewrite Nat.eqb_refl. reflexivity.
        -- rewrite untagged_tagged. repeat constructor.
        -- repeat constructor.
        -- cbn. rewrite Nat.eqb_refl. repeat constructor.
      * binv E. injection E as <- <-. invs. destruct (N.eqb_spec v 0) as [->|Hv].
        -- eapply (contrib c s _ t _ l _ _ _ _ [LPt t (OSet q) 0; LRes t (OSet q) 0] q H); [reflexivity|exact Hc1| | | |].
           ++ cbn. rewrite Nat.eqb_refl. reflexivity.
           ++ rewrite (untagged_even q Et). repeat constructor.
           ++ repeat constructor.
           ++ cbn. rewrite Nat.eqb_refl. repeat constructor.
        -- eapply (contrib c s _ t _ l _ _ _ _ [LPt t (OSet q) 0] q H); [reflexivity|exact Hc1|reflexivity| | |].
           ++ rewrite (untagged_even q Et). repeat constructor.
           ++ repeat constructor.
           ++ unfold release_pc. apply N.eqb_neq in Hv. rewrite Hv. cbn. rewrite Nat.eqb_refl. repeat constructor.
    + assert (Hc1 : nth_error (upd (cells s) d (CLive (target op v))) c = Some (CLive w)) by (now rewrite nth_error_upd_ne).
      pose proof Hdc as Hdb. apply Nat.eqb_neq in Hdb.
      destruct op as [|q]; binv E; injection E as <- <-; invs.
      * eapply (silent c s _ t _ l _ _ _ w H); [reflexivity|exact Hc1| |].
        -- cbn. now rewrite Hdb.
        -- cbn. now rewrite Hdb.
      * eapply (silent c s _ t _ l _ _ _ w H); [reflexivity|exact Hc1| |].
        -- destruct (v =? 0); cbn; now rewrite ?Hdb.
        -- unfold release_pc. destruct (v =? 0); cbn; now rewrite ?Hdb.
  - (* CtAdd *)
    destruct T as [Hd _]. assert (Hdc : d <> c) by congruence. binv E. injection E as <- <-. invs.
    eapply (silent c s _ t _ l _ _ _ w H); [reflexivity| |reflexivity|reflexivity]. cbn [cells sethp]. now rewrite nth_error_upd_ne.
  - binv E. injection E as <- <-. invs. sil H Hc. unfold release_pc. destruct (z =? 0); reflexivity.
Qed.

Lemma start_lin s t l a s1 o c w : inv vt s -> nth_error (threads s) t = Some (Thread Idle l) -> nth_error (cells s) c = Some (CLive w) ->
  allowed s (EStart t a) -> a <> ADtor c -> start debug s t l a = Ok (s1, o) -> contributes c s s1 o w.
Proof.
  intros I H Hc A Hnd E. destruct A as (th & Hth & _ & A). rewrite H in Hth. injection Hth as <-.
  destruct a as [a|a|a|a u|d|d q|d q|d]; cbn [start] in E.
  - binv E. injection E as <- <-. invs. sil H Hc.
  - binv E. injection E as <- <-. invs. sil H Hc.
  - binv E. injection E as <- <-. invs. sil H Hc.
  - binv E. injection E as <- <-. invs. cbn [threads cells] in *. exists [], w. split; [exact Hc|]. split; [reflexivity|]. split; [constructor|].
    intros x. match goal with |- alternates _ ?p [] ?q => assert (p = q) as <-; [|constructor] end. unfold phase_at at 2. cbn [threads].
    assert (P : forall y, match nth_error (upd (threads s) t (Thread Idle (remove1 a l))) y with Some th => phase_of c (tpc th) | None => PIdle end = phase_at c s y).
    { intros y. unfold phase_at. rewrite nth_error_upd. destruct (Nat.eqb_spec t y) as [<-|]; cbn [andb]; [|reflexivity]. destruct (Nat.ltb _ _); [|reflexivity]. now rewrite H. }
    rewrite nth_error_upd. destruct (Nat.eqb_spec u x) as [<-|]; cbn [andb]; [|symmetry; apply P].
    pose proof (P u) as Pu. unfold slot_get in *. destruct (nth_error (upd (threads s) t (Thread Idle (remove1 a l))) u) as [thu|] eqn:Eu; [|discriminate].
    injection Q0 as <-. destruct (Nat.ltb _ _); cbn [tpc]; symmetry; exact Pu.
  - binv E. injection E as <- <-. invs. destruct (Nat.eqb_spec d c) as [->|Hne].
    + eapply (contrib c s _ t Idle l _ l _ w [LInv t OGet] w H); [reflexivity|exact Hc| | | |].
      * cbn. now rewrite Nat.eqb_refl.
      * repeat constructor.
      * repeat constructor.
      * cbn. rewrite Nat.eqb_refl. repeat constructor.
    + apply Nat.eqb_neq in Hne. sil H Hc; cbn; now rewrite Hne.
  - binv E. injection E as <- <-. invs. destruct (Nat.eqb_spec d c) as [->|Hne].
    + eapply (contrib c s _ t Idle l _ l _ w [LInv t (OSet q)] w H); [reflexivity|exact Hc| | | |].
      * cbn. now rewrite Nat.eqb_refl.
      * repeat constructor.
      * repeat constructor.
      * cbn. rewrite Nat.eqb_refl. repeat constructor.
    + apply Nat.eqb_neq in Hne. sil H Hc; cbn; now rewrite Hne.
  - destruct A as [Hd _]. assert (Hdc : d <> c) by congruence. binv E. destruct (q =? 0); binv E; injection E as <- <-; invs.
    + eapply (silent c s _ t Idle l Idle l _ w H); [cbn; symmetry; now apply upd_same| |reflexivity|reflexivity]. cbn [cells]. now rewrite nth_error_upd_ne.
    + eapply (silent c s _ t Idle l _ l _ w H); [reflexivity| |reflexivity|reflexivity]. cbn [cells]. now rewrite nth_error_upd_ne.
  - assert (Hdc : d <> c) by congruence. binv E. injection E as <- <-. invs.
    eapply (silent c s _ t Idle l _ l _ w H); [reflexivity| |reflexivity|reflexivity]. cbn [cells]. now rewrite nth_error_upd_ne.
Qed.

Lemma run_lin c : forall es s w s' tr, inv vt s -> legal vt debug s es -> nth_error (cells s) c = Some (CLive w) ->
  (forall t, ~ In (EStart t (ADtor c)) es) -> run vt debug s es = Ok (s', tr) ->
  exists evs w', nth_error (cells s') c = Some (CLive w') /\ visible c evs = filter (on_cell c) tr /\ reg (untagged w) evs (untagged w') /\
    forall t, alternates t (phase_at c s t) evs (phase_at c s' t).
Proof.
  induction es as [|e es IH]; intros s w s' tr I L Hc Hnd E; cbn [run] in E.
  - injection E as <- <-. exists [], w. repeat (split; [first [assumption|reflexivity|constructor]|]). intros t. constructor.
  - inversion L as [|? ? ? A R]; subst. destruct (step_ok vt debug s e I A) as (s1 & o1 & E1 & I1). rewrite E1 in E. cbn [bind] in E.
    assert (C : contributes c s s1 o1 w).
    { destruct e as [t a|t]; cbn [step] in E1.
      - pose proof A as ([p l] & H & Hp & _). cbn in Hp. subst p. rewrite (slot_get_ok _ _ _ H) in E1. cbn [bind held] in E1.
        eapply start_lin; eauto. intros ->. apply (Hnd t). left. reflexivity.
      - destruct A as ([p l] & H & Hp). rewrite (slot_get_ok _ _ _ H) in E1. cbn [bind held tpc] in E1. eapply cont_lin; eauto. }
    destruct C as (es1 & w1 & Hc1 & V1 & R1 & A1).
    destruct (run vt debug s1 es) as [[s2 o2]| |] eqn:E2; cbn [bind] in E; try discriminate. injection E as <- <-.
    destruct (IH s1 w1 s2 o2 I1 (R _ _ E1) Hc1) as (es2 & w2 & Hc2 & V2 & R2 & A2); [|exact E2|].
    { intros t Hin. apply (Hnd t). right. exact Hin. }
    exists (es1 ++ es2), w2. split; [exact Hc2|]. split; [now rewrite visible_app, filter_app, V1, V2|].
    split; [eapply reg_app; eauto|]. intros t. eapply alt_app; eauto.
Qed.
End Lin.
