(** The #error of am-string.h. *)
From Coq Require Import String ZArith.
From Verif Require Import Base PreprocModel HeadersModel PreprocSpec PreprocProofs PreprocFacts.
Local Open Scope string_scope.
Local Open Scope list_scope.

Section One.
Variable B : predefined.
Hypothesis E : environment B.
Notation WF := (wf B headers order tested_list owners []).
Notation all_ok := (checked [] (eq_refl : forallb (fun h => is_some (check headers order tested_list owners [] h)) order = true)).
Lemma nothing : forall (m o : string) (s : pp), In m [] -> owner owners m = Some o -> canon B headers o = Fine s -> assoc m (macros s) = None.
Proof. intros ? ? ? []. Qed.
Notation n := (rank order "am-string.h").
Notation inc := (include B headers 255).

Lemma include_fact g s : In g order -> (rank order g < n)%nat -> WF s n ->
  match inc g s with
  | Fine s' => WF s' n /\ entered headers s' g = true /\ (forall f, entered headers s f = true -> entered headers s' f = true)
  | Rejected x y => exists k, headers x = Some k /\ stops k = true /\ canon B headers x = Rejected x y /\ (rank order g < n)%nat
  | _ => False
  end.
Proof.
  intros Hg L W.
  assert (Hn : (n <= length order)%nat) by (apply Nat.leb_le; vm_compute; reflexivity).
  assert (Hd : (rank order g < 255)%nat).
  { eapply Nat.lt_le_trans; [exact L|]. apply Nat.leb_le; vm_compute; reflexivity. }
  pose proof (inc_ok B headers order tested_list owners [] all_ok (B_clean B E) has_file short nothing
                (rank order g) 255 g s n eq_refl Hg L Hn Hd W) as I.
  destruct (inc g s) as [s'|x y| |] eqn:Ei; try tauto.
  - destruct I as (W' & En & F). split; [exact W'|]. split; [exact En|]. exact (proj2 F).
  - pose proof (rejected_from _ _ _ _ _ _ _ Ei) as (k & Hk & St). exists k. tauto.
Qed.
Lemma plain_wf k : plain k = true ->
  forallb (fun m => negb (tested tested_list m) || match owner owners m with Some o => String.eqb o "am-string.h" | None => false end) (defines k) = true ->
  forall s, WF s n -> exists s', process B inc "am-string.h" k s = Fine s' /\ WF s' n /\
    (forall f, entered headers s f = true -> entered headers s' f = true) /\
    (forall m, ~ In m (defines k) -> assoc m (macros s') = assoc m (macros s)).
Proof.
  induction k as [|a b k IHk|m v k IHk|g' k IHk|g k IHk|k IHk|x k IHk|c t IHt e IHe k IHk]; cbn [plain process defines];
    intros P D s W; try discriminate.
  - exists s. auto.
  - destruct (step_item B headers order tested_list owners [] all_ok (B_clean B E) has_file short nothing "am-string.h" s
       (Lines "am-string.h" a b) n) as [A F]; [intros f Ef; now apply String.eqb_eq in Ef|reflexivity|].
    destruct (IHk P D _ (A W)) as (s' & Q & W' & En & M). exists s'. split; [exact Q|]. split; [exact W'|]. split; [|exact M].
    intros f Hf. apply En, (proj2 F), Hf.
  - cbn [forallb] in D. apply andb_true_iff in D as [Dm D].
    destruct (step_macro B headers order tested_list owners [] all_ok (B_clean B E) has_file short nothing "am-string.h" s m (eval B s v) n eq_refl) as [A F].
    { apply orb_true_iff in Dm as [Dm|Dm]; [left; now apply negb_true_iff|right]. destruct (owner owners m); [|discriminate].
      apply String.eqb_eq in Dm. congruence. }
    destruct (IHk P D _ (A W)) as (s' & Q & W' & En & M). exists s'. split; [exact Q|]. split; [exact W'|]. split.
    + intros f Hf. apply En, (proj2 F), Hf.
    + intros m' Hm. rewrite M by (cbn in Hm; tauto). rewrite assoc_add. destruct (String.eqb_spec m' m); [|reflexivity]. cbn in Hm. subst. tauto.
  - destruct (step_item B headers order tested_list owners [] all_ok (B_clean B E) has_file short nothing "am-string.h" s
       (Sys "am-string.h" g) n) as [A F]; [intros f Ef; now apply String.eqb_eq in Ef|reflexivity|].
    destruct (IHk P D _ (A W)) as (s' & Q & W' & En & M). exists s'. split; [exact Q|]. split; [exact W'|]. split; [|exact M].
    intros f Hf. apply En, (proj2 F), Hf.
  - apply andb_true_iff in P as [P Pk]. apply andb_true_iff in P as [Pt Pe].
    rewrite !forallb_app in D. apply andb_true_iff in D as [Dt D]. apply andb_true_iff in D as [De Dk].
    assert (Hb : exists s', process B inc "am-string.h" (if (eval B s c =? 0)%Z then e else t) s = Fine s' /\ WF s' n /\
      (forall f, entered headers s f = true -> entered headers s' f = true) /\
      (forall m, ~ In m (defines t ++ defines e) -> assoc m (macros s') = assoc m (macros s))).
    { destruct (eval B s c =? 0)%Z; [destruct (IHe Pe De s W) as (s' & Q & W' & En & M)|destruct (IHt Pt Dt s W) as (s' & Q & W' & En & M)];
        exists s'; (split; [exact Q|]); (split; [exact W'|]); (split; [exact En|]); intros m Hm; apply M; rewrite in_app_iff in Hm; tauto. }
    destruct Hb as (s1 & Q1 & W1 & En1 & M1). rewrite Q1. destruct (IHk Pk Dk s1 W1) as (s' & Q & W' & En & M).
    exists s'. split; [exact Q|]. split; [exact W'|]. split; [auto|].
    intros m Hm. rewrite !in_app_iff in Hm. rewrite M by tauto. apply M1. rewrite in_app_iff. tauto.
Qed.
(** Code one after the other. *)
Fixpoint seq (k r : code) : code :=
  match k with
  | Done => r
  | Text a b k => Text a b (seq k r) | Define m v k => Define m v (seq k r) | Include g k => Include g (seq k r)
  | System g k => System g (seq k r) | Once k => Once (seq k r) | Stop a k => Stop a (seq k r)
  | If c t e k => If c t e (seq k r)
  end.
Lemma process_seq f k r : forall s, process B inc f (seq k r) s =
  match process B inc f k s with Fine s => process B inc f r s | q => q end.
Proof.
  induction k as [|a b k IHk|m v k IHk|g' k IHk|g k IHk|k IHk|x k IHk|c t IHt e IHe k IHk]; intros s; cbn [seq process]; auto.
  - destruct (inc g' s); auto.
  - destruct (process B inc f (if (eval B s c =? 0)%Z then e else t) s); auto.
Qed.
Fixpoint upto (k : code) : code :=   (* before the first #include of amtl *)
  match k with
  | Text a b k => Text a b (upto k) | Define m v k => Define m v (upto k) | System g k => System g (upto k)
  | If c t e k => If c t e (upto k) | _ => Done
  end.
Fixpoint after_includes (k : code) : code :=
  match k with
  | Text _ _ k | Define _ _ k | System _ k | If _ _ _ k => after_includes k
  | Include _ (Include _ (Include _ (Include _ k))) => k | _ => Done
  end.
(** The last conditional and what comes before it. *)
Fixpoint but_last (k : code) : code :=
  match k with
  | Text a b (Text _ _ k as k') => Text a b (but_last k')
  | Text a b k => Text a b (but_last k) | Define m v k => Define m v (but_last k) | System g k => System g (but_last k)
  | If (EDefined "KE_WINDOWS") t e k => Done
  | If c t e k => If c t e (but_last k) | _ => Done
  end.
Fixpoint last_if (k : code) : code :=
  match k with
  | Text _ _ k | Define _ _ k | System _ k => last_if k
  | If (EDefined "KE_WINDOWS") t e r => k
  | If _ _ _ k => last_if k | k => k
  end.
Definition string_body : code := match h_string with If _ (Define _ _ k) _ _ => k | _ => Done end.
Definition string_start := Eval vm_compute in upto string_body.
Definition string_rest := Eval vm_compute in but_last (after_includes string_body).
Definition string_last := Eval vm_compute in last_if (after_includes string_body).
Lemma string_parts : h_string = If (ENot (EDefined "_include_amtl_string_h_")) (Define "_include_amtl_string_h_" (ENum 1)
  (seq string_start (Include "am-bits.h" (Include "am-cxx.h" (Include "am-platform.h" (Include "am-vector.h"
     (seq string_rest string_last))))))) Done Done.
Proof. reflexivity. Qed.

(** am-string.h gives up by its own #error only on a system that am-platform.h does not know. *)
Lemma alone_string q : canon B headers "am-string.h" = q ->
  (exists y, q = Rejected "am-cxx.h" y) \/
  if match os_of B with OtherOS => true | _ => false end then q = Rejected "am-string.h" 362 else exists s, q = Fine s.
Proof.
  intros C. assert (Hs : In "am-string.h" order) by (apply mem_in; reflexivity).
  unfold canon in C. change limit with (S 255) in C.
  rewrite (include_once B headers order tested_list owners [] all_ok (B_clean B E) has_file 255 "am-string.h" init n Hs
             (wf_init B headers order tested_list owners [] n)) in C.
  rewrite init_new in C. change (mark headers init "am-string.h") with (add_macro init "_include_amtl_string_h_" 1) in C.
  change (body headers "am-string.h") with (seq string_start (Include "am-bits.h" (Include "am-cxx.h" (Include "am-platform.h" (Include "am-vector.h"
     (seq string_rest string_last)))))) in C.
  destruct (mark_ok B headers order tested_list owners [] all_ok (B_clean B E) has_file short nothing init "am-string.h" n Hs eq_refl)
    as (W0 & _). specialize (W0 (wf_init _ _ _ _ _ _ n)).
  change (mark headers init "am-string.h") with (add_macro init "_include_amtl_string_h_" 1) in W0.
  set (s0 := add_macro init "_include_amtl_string_h_" 1) in *. clearbody s0.
  rewrite process_seq in C.
  destruct (plain_wf string_start eq_refl eq_refl s0 W0) as (s1 & Q1 & W1 & _ & _). rewrite Q1 in C. clear Q1 W0.
  set (X := seq string_rest string_last) in C. cbn [process] in C.
  assert (Hin : forall g, In g ["am-bits.h"; "am-cxx.h"; "am-platform.h"; "am-vector.h"] -> In g order /\ (rank order g < n)%nat).
  { intros g Hg. repeat (destruct Hg as [<-|Hg]; [split; [apply mem_in; reflexivity|apply Nat.ltb_lt; vm_compute; reflexivity]|]). destruct Hg. }
  assert (Rj : forall x y g s, In g ["am-bits.h"; "am-cxx.h"; "am-platform.h"; "am-vector.h"] -> WF s n -> inc g s = Rejected x y -> x = "am-cxx.h").
  { intros x y g s Hg W I. destruct (Hin g Hg) as [H1 H2].
    pose proof (rejected_from _ _ _ _ _ _ _ I) as (k & Hk & St).
    assert (Hx : In x order /\ (rank order x < n)%nat).
    { split; [apply header_in; exists k; exact Hk|].
      refine (rejected_within B headers (fun f => (rank order f < n)%nat) _ 255 g s x y H2 I).
      intros f k' g' Pf Hf Hg'. assert (Hfo : In f order) by (apply header_in; exists k'; exact Hf).
      assert (A : forallb (fun f => match headers f with Some k => forallb (fun g => (rank order g <? rank order f)%nat) (mentions k) | None => true end) order = true)
        by (vm_compute; reflexivity).
      rewrite forallb_forall in A. specialize (A f Hfo). rewrite Hf in A. rewrite forallb_forall in A. specialize (A g' Hg').
      apply Nat.ltb_lt in A. lia. }
    assert (A : forallb (fun f => match headers f with Some k => negb (stops k) || negb (rank order f <? n)%nat || String.eqb f "am-cxx.h" | None => true end) order = true)
      by (vm_compute; reflexivity).
    rewrite forallb_forall in A. specialize (A x (proj1 Hx)). rewrite Hk, St in A. apply proj2, Nat.ltb_lt in Hx. rewrite Hx in A.
    cbn in A. now apply String.eqb_eq in A. }
  assert (St : forall g s r, In g ["am-bits.h"; "am-cxx.h"; "am-platform.h"; "am-vector.h"] -> WF s n ->
    match inc g s with Fine s => r s | q => q end = q ->
    (exists y, q = Rejected "am-cxx.h" y) \/ exists s', WF s' n /\ entered headers s' g = true /\ (forall f, entered headers s f = true -> entered headers s' f = true) /\
       r s' = q).
  { intros g s r Hg W I. destruct (Hin g Hg) as [H1 H2]. pose proof (include_fact g s H1 H2 W) as F.
    destruct (inc g s) as [s'|x' y'| |] eqn:Ei; try tauto.
    - right. exists s'. tauto.
    - left. exists y'. rewrite <- I. f_equal. eapply Rj; eauto. }
  clear Rj.
  apply St in C; [|cbn; tauto|exact W1]. destruct C as [|(s2 & W2 & _ & _ & C)]; [now left|]. clear s1 W1.
  apply St in C; [|cbn; tauto|exact W2]. destruct C as [|(s3 & W3 & _ & _ & C)]; [now left|]. clear s2 W2.
  apply St in C; [|cbn; tauto|exact W3]. destruct C as [|(s4 & W4 & E4 & _ & C)]; [now left|]. clear s3 W3.
  apply St in C; [|cbn; tauto|exact W4]. destruct C as [|(s5 & W5 & _ & E5 & C)]; [now left|]. apply E5 in E4. clear s4 W4 E5.
  right. subst X. rewrite process_seq in C.
  destruct (plain_wf string_rest eq_refl eq_refl s5 W5) as (s6 & Q6 & W6 & E6 & _). rewrite Q6 in C. apply E6 in E4. clear s5 Q6 W5 E6.
  pose proof (proj1 W6 "am-platform.h" (proj1 (Hin "am-platform.h" ltac:(cbn; tauto))) (proj2 (Hin "am-platform.h" ltac:(cbn; tauto)))) as P.
  unfold wf1 in P. rewrite E4 in P. destruct P as (sp & Cp & Mp & _).
  pose proof (alone_platform B E) as A. unfold translate in A. cbn [includes] in A. unfold canon, init in Cp. rewrite Cp in A. injection A as ->.
  cbn [macros] in Mp. destruct (platform_parts B) as (Po & _ & _).
  assert (K : forall m, In m all_os_macros -> cond B s6 (EDefined m) = mem m (os_macros (os_of B))).
  { intros m Hm. cbn [cond]. destruct (platform_owned m) as [R Ow]; [rewrite in_app_iff; now left|].
    rewrite (Mp m Ow). specialize (Po m Hm). rewrite (defd_no B E m R). pose proof (mem_in m (os_macros (os_of B))) as MI.
    destruct (assoc m (platform_macros B)).
    - symmetry. apply MI, Po. discriminate.
    - symmetry. apply not_true_iff_false. intros M. apply MI, Po in M. congruence. }
  subst q. unfold string_last. rewrite process_if, (K "KE_WINDOWS") by (cbn; tauto).
  destruct (mem "KE_WINDOWS" (os_macros (os_of B))) eqn:M1; [destruct (os_of B); try discriminate M1; eexists; reflexivity|].
  rewrite process_if, (K "KE_POSIX") by (cbn; tauto).
  destruct (os_of B); try discriminate M1; cbn [mem existsb os_macros]; first [reflexivity|eexists; reflexivity].
Qed.
End One.
