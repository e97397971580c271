(** Aliased assignments and ownership transfers. *)
From Verif Require Import Base BitsProofs RefcountModel RefcountSpec RefcountProofs RefcountState RefcountStep.

Section S.
Variable debug : bool.

Lemma reach_sinv s : reachable debug s -> sinv s None.
Proof. intros (n & ops & L & R). destruct (run_ok debug ops (init n) (sinv0 n) L) as (s' & E & I). congruence. Qed.

Lemma one_handle s l o : sinv s None -> content s l = Some (Some o) ->
  exists ob, nth_error (objs (hp s)) o = Some ob /\ st ob = Alive /\ rc ob = handles s o.
Proof.
  intros H Hc. destruct (content_alive _ _ _ _ H Hc) as (ob & Ho & Ao). exists ob. split; [auto|]. split; [auto|].
  exact (i_rc _ _ _ _ H o ob Ho Ao).
Qed.

Lemma last_release s o ob h' : nth_error (objs (hp s)) o = Some ob -> st ob = Alive -> rc ob = 1 ->
  Release debug (hp s) (Some o) = Ok h' -> exists b, nth_error (objs h') o = Some b /\ st b = Dead.
Proof.
  intros Ho Ao R E. cbn [Release obj_Release] in E. rewrite (get_alive_ok _ _ _ Ho Ao) in E. cbn [bind] in E. rewrite R in E.
  cbn [Nat.ltb Nat.leb assert_] in E. assert (Ea : assert_ debug true = Ok tt) by (destruct debug; reflexivity). rewrite Ea in E. cbn [bind] in E.
  destruct (release_list _ _ _) as [h1| |] eqn:El; cbn [bind] in E; try discriminate.
  apply finish_inv in E. destruct E as (b & Hb & Sb & ->). exists (Obj 0 Dead []). split; [|reflexivity]. cbn [objs].
  rewrite nth_error_upd_eq; [reflexivity|]. apply nth_error_Some. congruence.
Qed.
Lemma shared_release s o ob n : nth_error (objs (hp s)) o = Some ob -> st ob = Alive -> rc ob = S (S n) ->
  Release debug (hp s) (Some o) = Ok (set_obj (hp s) o (Obj (S n) Alive (flds ob))).
Proof.
  intros Ho Ao R. cbn [Release obj_Release]. rewrite (get_alive_ok _ _ _ Ho Ao). cbn [bind]. rewrite R.
  cbn [Nat.ltb Nat.leb assert_]. assert (Ea : assert_ debug true = Ok tt) by (destruct debug; reflexivity). now rewrite Ea.
Qed.
Lemma dead_alive h o b : nth_error (objs h) o = Some b -> st b = Dead -> get_alive h o = Fault UseAfterFree.
Proof. intros Ho D. unfold get_alive, slot_get. rewrite Ho. cbn [bind]. now rewrite D. Qed.

(** [l = l] and [l = l.get()] with the only reference. *)
Lemma self_copy_last s l o : sinv s None -> secure s l l -> content s l = Some (Some o) -> handles s o = 1 ->
  step debug s (AssignCopy l l) = Fault UseAfterFree /\ step debug s (AssignRaw l l) = Fault UseAfterFree.
Proof.
  intros H Hs Hc Hh. destruct (one_handle s l o H Hc) as (ob & Ho & Ao & R). rewrite Hh in R.
  destruct (release_at debug s l None H Hs) as (p & s1 & Er & Hc' & E & Ev & Hc1 & Hr1 & I1 & _ & _ & C & _).
  rewrite Hc in Hc'. injection Hc' as <-. cbn [step]. rewrite Er. cbn [bind]. rewrite E. cbn [bind].
  unfold lift in E. destruct (Release debug (hp s) (Some o)) as [h'| |] eqn:Erel; cbn [bind] in E; try discriminate. injection E as <-.
  destruct (last_release s o ob h' Ho Ao R Erel) as (b & Hb & Db).
  assert (G : (do s2 <- write (State h' (vars s)) l (Some o); do q <- read s2 l; lift s2 (AddRef (hp s2) q)) = Fault UseAfterFree).
  { rewrite write_ok by auto. cbn [bind].
    assert (X : content (put (State h' (vars s)) l (Some o)) l = Some (Some o)) by (apply put_content_eq; congruence).
    rewrite (read_ok _ _ (Some o) (put_refptr _ _ _ _ Hr1) X).
    cbn [bind AddRef]. unfold obj_AddRef.
    assert (Sm : same_heap h' (hp (put (State h' (vars s)) l (Some o)))) by (exact (put_same (State h' (vars s)) l (Some o))).
    destruct (same_fwd _ _ Sm _ _ Hb) as (b2 & Hb2 & Sb & Rb). assert (D2 : st b2 = Dead) by congruence. rewrite (dead_alive _ _ _ Hb2 D2). reflexivity. }
  split; [|exact G]. rewrite (read_ok _ _ _ Hr1 Hc1). cbn [bind]. exact G.
Qed.

(** With another reference (or null) nothing changes. *)
Lemma upd_id {A} (l : list A) i x : nth_error l i = Some x -> upd l i x = l.
Proof.
  intros E. apply nth_ext_list. intros j. rewrite nth_error_upd. destruct (Nat.eqb_spec i j) as [<-|]; cbn [andb]; [|reflexivity].
  destruct (Nat.ltb_spec i (length l)); [now rewrite E|]. assert (i < length l) by (apply nth_error_Some; congruence). lia.
Qed.
Lemma put_id s l p : content s l = Some p -> put s l p = s.
Proof.
  intros Hc. destruct s as [h vs]. destruct l as [v|y j]; cbn [content put vars hp] in *.
  - destruct (nth_error vs v) as [[w|]|] eqn:Ev; try discriminate. injection Hc as <-. f_equal. apply upd_id. rewrite Ev. destruct w; reflexivity.
  - destruct (nth_error (objs h) y) as [ob|] eqn:Ey; [|discriminate]. destruct (st ob) eqn:Sb; try discriminate.
    f_equal. apply heap_ext; [|now rewrite wf_log]. intros i. rewrite wf_nth. destruct (Nat.eqb_spec y i) as [<-|]; [|reflexivity].
    rewrite Ey. cbn. rewrite (upd_id _ _ _ Hc). destruct ob; reflexivity.
Qed.
Lemma self_copy_shared s l : sinv s None -> is_refptr s l ->
  (forall o, content s l = Some (Some o) -> 2 <= handles s o) ->
  step debug s (AssignCopy l l) = Ok s /\ step debug s (AssignRaw l l) = Ok s.
Proof.
  intros H Hr Hh. destruct (refptr_content _ _ Hr) as [p Hc]. cbn [step]. rewrite (read_ok _ _ _ Hr Hc). cbn [bind].
  destruct p as [o|].
  2: { unfold lift. cbn [Release bind]. replace (State (hp s) (vars s)) with s by (destruct s; reflexivity).
       rewrite (read_ok _ _ _ Hr Hc). cbn [bind]. rewrite !(write_ok _ _ _ Hr). cbn [bind].
       rewrite !(put_id _ _ _ Hc), !(read_ok _ _ _ Hr Hc). cbn [bind AddRef]. destruct s; auto. }
  destruct (one_handle s l o H Hc) as (ob & Ho & Ao & R). specialize (Hh o Hc).
  destruct (rc ob) as [|[|n]] eqn:Er; try lia. unfold lift. rewrite (shared_release s o ob n Ho Ao Er). cbn [bind].
  set (s1 := State _ (vars s)).
  assert (Hlt : o < length (objs (hp s))) by (apply nth_error_Some; congruence).
  assert (Hc1 : content s1 l = Some (Some o)).
  { unfold s1. destruct l as [v|y j]; [exact Hc|]. cbn [content hp] in *. rewrite set_obj_nth by auto. destruct (Nat.eqb_spec o y) as [<-|]; [|exact Hc].
    rewrite Ho, Ao in Hc. exact Hc. }
  assert (Hr1 : is_refptr s1 l). { destruct l as [v|y j]; [exact Hr|]. cbn [is_refptr]. congruence. }
  assert (G : (do s2 <- write s1 l (Some o); do q <- read s2 l; do h <- AddRef (hp s2) q; Ok (State h (vars s2))) = Ok s).
  { rewrite (write_ok _ _ _ Hr1). cbn [bind]. rewrite (put_id _ _ _ Hc1), (read_ok _ _ _ Hr1 Hc1). cbn [bind AddRef]. unfold obj_AddRef.
    rewrite (get_alive_ok _ o (Obj (S n) Alive (flds ob))); [|unfold s1; cbn [hp]; rewrite set_obj_nth, Nat.eqb_refl by auto; reflexivity|reflexivity].
    cbn [bind rc flds]. f_equal. destruct s as [h vs]. unfold s1. cbn [hp vars] in *. f_equal. apply heap_ext; [|reflexivity].
    intros i. rewrite set_obj_nth by (cbn; rewrite upd_length; auto). destruct (Nat.eqb_spec o i) as [<-|Hne].
    - rewrite Ho. destruct ob; cbn in *. subst. reflexivity.
    - rewrite set_obj_nth by auto. apply Nat.eqb_neq in Hne. now rewrite Hne. }
  split; [|exact G]. rewrite (read_ok _ _ _ Hr1 Hc1). cbn [bind]. exact G.
Qed.

(** [head = head->next]. *)
Lemma next_last s l o j : sinv s None -> secure s l l -> content s l = Some (Some o) -> handles s o = 1 ->
  step debug s (AssignCopy l (LFld o j)) = Fault UseAfterFree /\ step debug s (AssignMove l (LFld o j)) = Fault UseAfterFree.
Proof.
  intros H Hs Hc Hh. destruct (one_handle s l o H Hc) as (ob & Ho & Ao & R). rewrite Hh in R.
  destruct (release_at debug s l None H Hs) as (p & s1 & Er & Hc' & E & Ev & Hc1 & Hr1 & I1 & _ & _ & C & _).
  rewrite Hc in Hc'. injection Hc' as <-. cbn [step]. rewrite Er. cbn [bind]. rewrite E. cbn [bind].
  unfold lift in E. destruct (Release debug (hp s) (Some o)) as [h'| |] eqn:Erel; cbn [bind] in E; try discriminate. injection E as <-.
  destruct (last_release s o ob h' Ho Ao R Erel) as (b & Hb & Db).
  cbn [read hp]. rewrite (dead_alive _ _ _ Hb Db). auto.
Qed.
Lemma next_shared s v o j q : sinv s None -> kind s v = Some 0 -> content s (LVar v) = Some (Some o) -> 2 <= handles s o ->
  content s (LFld o j) = Some q ->
  exists s', step debug s (AssignCopy (LVar v) (LFld o j)) = Ok s' /\ sinv s' None /\ content s' (LVar v) = Some q /\
    alive s' o /\ content s' (LFld o j) = Some q.
Proof.
  intros H Hk Hc Hh Hq. destruct (one_handle s _ o H Hc) as (ob & Ho & Ao & R).
  destruct (release_at debug s (LVar v) None H (conj Hk Logic.I)) as (p & s1 & Er & Hc' & E & Ev & Hc1 & Hr1 & I1 & _ & _ & C & _).
  rewrite Hc in Hc'. injection Hc' as <-. cbn [step]. rewrite Er. cbn [bind]. rewrite E. cbn [bind].
  destruct (rc ob) as [|[|n]] eqn:Erc; try lia. unfold lift in E. rewrite (shared_release s o ob n Ho Ao Erc) in E. cbn [bind] in E. injection E as <-.
  set (s1 := State _ (vars s)) in *. assert (Hlt : o < length (objs (hp s))) by (apply nth_error_Some; congruence).
  assert (Ho1 : halive (hp s1) o). { eexists. split; [unfold s1; cbn [hp]; rewrite set_obj_nth, Nat.eqb_refl by auto; reflexivity|reflexivity]. }
  assert (Hq1 : content s1 (LFld o j) = Some q) by (rewrite C; auto).
  assert (Hrq : is_refptr s1 (LFld o j)) by (cbn [is_refptr]; congruence). rewrite (read_ok _ _ _ Hrq Hq1). cbn [bind].
  destruct (assign_addref s1 (LVar v) q None I1 Hr1) as (s' & E' & I' & C' & A').
  { intros x ->. apply (same_alive _ _ x (put_same s1 (LVar v) None)).
    apply (content_alive (put s1 (LVar v) None) None (LFld o j) x I1). rewrite put_content_ne by discriminate. exact Hq1. } { auto. }
  exists s'. split; [exact E'|]. split; [exact I'|]. split; [rewrite C', loc_eqb_refl; reflexivity|].
  assert (X : content s' (LFld o j) = Some q) by (rewrite C', loc_eqb_ne by discriminate; exact Hq1). split; [|exact X].
  cbn [content] in X. destruct (nth_error (objs (hp s')) o) as [b|] eqn:Eb; [|discriminate]. exists b. split; [exact Eb|].
  destruct (st b); congruence.
Qed.

(** Transfers. *)
Lemma put_counts s l p : counts (put s l p) = counts s.
Proof.
  unfold counts, put. destruct l as [v|y j].
  - destruct (nth_error (vars s) v) as [[w|]|]; reflexivity.
  - destruct (nth_error (objs (hp s)) y) as [ob|] eqn:Ey; [|reflexivity]. cbn [hp]. rewrite wf_log. f_equal. apply nth_ext_list. intros i.
    rewrite !nth_error_map, wf_nth. destruct (Nat.eqb_spec y i) as [<-|]; [|reflexivity]. rewrite Ey. reflexivity.
Qed.
Lemma setv_counts s v x : counts (setv s v x) = counts s.
Proof. reflexivity. Qed.

Definition is_transfer (o : op) (src : loc) : Prop :=
  match o with
  | CtorMove _ l | Take _ l => src = l
  | CtorAlready _ w | AlMove _ w | AlTake _ w | Adopt _ w => src = LVar w
  | _ => False
  end.
Lemma transfer_counts s o src s' : is_transfer o src -> step debug s o = Ok s' -> pre s o -> counts s' = counts s.
Proof.
  destruct o; cbn [is_transfer]; try contradiction; intros -> E Hp; cbn [step pre] in *; destruct Hp as [Hu Hr].
  - destruct (refptr_content _ _ Hr) as [p Hc]. rewrite (read_ok _ _ _ Hr Hc) in E. cbn [bind] in E. rewrite new_var_ok in E by auto. cbn [bind] in E.
    rewrite write_ok in E by (apply setv_refptr; [now apply (refptr_ne_unused s)|auto]). injection E as <-. now rewrite put_counts, setv_counts.
  - destruct (kind1 _ _ Hr) as (p & Ew & Eg & Hc). rewrite Eg in E. cbn [bind] in E. rewrite (set_var_ok _ _ _ _ Ew) in E. cbn [bind] in E.
    unfold new_var in E. destruct (slot_get _ _) as [[?|]| |]; cbn [bind] in E; try discriminate.
    unfold set_var in E. destruct (slot_set _ _ _); cbn [bind] in E; try discriminate. injection E as <-. reflexivity.
  - destruct (refptr_content _ _ Hr) as [p Hc]. rewrite (read_ok _ _ _ Hr Hc) in E. cbn [bind] in E. rewrite write_ok in E by auto. cbn [bind] in E.
    rewrite new_var_ok in E by (apply put_unused; auto). injection E as <-. now rewrite setv_counts, put_counts.
  - destruct (kind1 _ _ Hr) as (p & Ew & Eg & Hc). rewrite Eg in E. cbn [bind] in E. rewrite new_var_ok in E by auto. cbn [bind] in E.
    unfold set_var in E. destruct (slot_set _ _ _); cbn [bind] in E; try discriminate. injection E as <-. reflexivity.
  - destruct (kind1 _ _ Hr) as (p & Ew & Eg & Hc). rewrite Eg in E. cbn [bind] in E. rewrite (set_var_ok _ _ _ _ Ew) in E. cbn [bind] in E.
    unfold new_var in E. destruct (slot_get _ _) as [[?|]| |]; cbn [bind] in E; try discriminate.
    unfold set_var in E. destruct (slot_set _ _ _); cbn [bind] in E; try discriminate. injection E as <-. reflexivity.
  - destruct (kind2 _ _ Hr) as (p & Ew & Eg & Hc). rewrite Eg in E. cbn [bind] in E. rewrite (set_var_ok _ _ _ _ Ew) in E. cbn [bind] in E.
    unfold new_var in E. destruct (slot_get _ _) as [[?|]| |]; cbn [bind] in E; try discriminate.
    unfold set_var in E. destruct (slot_set _ _ _); cbn [bind] in E; try discriminate. injection E as <-. reflexivity.
Qed.

(** Move-assignment and assignment from an AlreadyRefed release the old referent, and touch no other count. *)
Lemma assign_move_counts s l m : sinv s None -> pre s (AssignMove l m) ->
  exists s1 s2, step debug s (AssignMove l m) = Ok s1 /\ step debug s (AssignNull l) = Ok s2 /\ counts s1 = counts s2.
Proof.
  intros H Hp. pose proof Hp as [Hs Hsm]. destruct (step_ok debug s _ H Hp) as (s1 & E1 & _).
  destruct (step_ok debug s (AssignNull l) H Hs) as (s2 & E2 & _). exists s1, s2. split; [exact E1|]. split; [exact E2|].
  cbn [step] in *. destruct (read s l); cbn [bind] in *; try discriminate.
  destruct (lift s _) as [t| |]; cbn [bind] in *; try discriminate. destruct (read t m) as [q| |]; cbn [bind] in *; try discriminate.
  assert (W : forall t l q t', write t l q = Ok t' -> counts t' = counts t).
  { clear. intros t l q t'. destruct l as [v|y j]; cbn [write].
    - destruct (get_var t v) as [[| |]| |]; cbn [bind]; try discriminate. unfold set_var. destruct (slot_set _ _ _); cbn [bind]; try discriminate.
      intros X. injection X as <-. reflexivity.
    - destruct (get_alive (hp t) y) as [ob| |] eqn:G; cbn [bind]; try discriminate. destruct (slot_set _ _ _); cbn [bind]; try discriminate.
      intros X. injection X as <-. unfold counts, set_obj. cbn [hp objs log]. f_equal. apply get_alive_inv in G as [G _].
      apply nth_ext_list. intros i. rewrite !nth_error_map, nth_error_upd. destruct (Nat.eqb_spec y i) as [<-|]; cbn [andb]; [|reflexivity].
      rewrite G. destruct (Nat.ltb_spec y (length (objs (hp t)))); [reflexivity|reflexivity]. }
  destruct (write t l q) as [t1| |] eqn:W1; cbn [bind] in *; try discriminate.
  rewrite (W _ _ _ _ E1), (W _ _ _ _ W1), (W _ _ _ _ E2). reflexivity.
Qed.
Lemma assign_already_counts s l w : sinv s None -> pre s (AssignAlready l w) ->
  exists s1 s2, step debug s (AssignAlready l w) = Ok s1 /\ step debug s (AssignNull l) = Ok s2 /\ counts s1 = counts s2.
Proof.
  intros H Hp. pose proof Hp as [Hs Hsm]. destruct (step_ok debug s _ H Hp) as (s1 & E1 & _).
  destruct (step_ok debug s (AssignNull l) H Hs) as (s2 & E2 & _). exists s1, s2. split; [exact E1|]. split; [exact E2|].
  destruct (release_at debug s l None H Hs) as (p & t & Er & Hc & E & Ev & Hc1 & Hr1 & I1 & _ & _ & C & _).
  cbn [step] in *. rewrite Er in *. cbn [bind] in *. rewrite E in *. cbn [bind] in *.
  rewrite write_ok in E2 by auto. injection E2 as <-. rewrite put_counts.
  destruct (kind1 _ _ Hsm) as (q & Ew & _ & _). unfold get_al, get_var in E1. rewrite Ev, (slot_get_ok _ _ _ Ew) in E1. cbn [bind] in E1.
  rewrite <- Ev in Ew. rewrite (set_var_ok _ _ _ _ Ew) in E1. cbn [bind] in E1.
  assert (is_refptr (setv t w (Some (VAl None))) l).
  { apply setv_refptr; [|auto]. intros ->. cbn [is_refptr] in Hr1. unfold kind in Hr1. rewrite Ew in Hr1. discriminate. }
  rewrite write_ok in E1 by auto. injection E1 as <-. now rewrite put_counts, setv_counts.
Qed.
End S.
