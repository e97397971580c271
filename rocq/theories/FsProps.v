(** Properties C103 and C104 (amtl/os/am-fsutil-posix.h, am-fsutil-windows.h). *)
From Verif Require Import Base FsModel FsSpec.
Local Open Scope nat_scope.

Section Walk.
Variable root : nat.
Lemma walk_leads f : forall links cur cs i, walk root f links cur cs = Some i <-> exists n, n <= links /\ leads root f cur cs n i.
Proof.
  assert (G1 : forall links cur cs i, walk root f links cur cs = Some i -> exists n, n <= links /\ leads root f cur cs n i).
  { induction links as [links IHl] using lt_wf_ind. intros cur cs. revert cur. induction cs as [|c r IH]; intros cur i H.
    - destruct links; cbn in H; destruct (f cur) eqn:E; try discriminate; injection H as <-; exists 0; (split; [lia|]); constructor; congruence.
    - assert (H' : match f cur with
        | Some (NDir entry _ true) => match entry c with None => None | Some i => match f i with None => None
           | Some (NLink a t) => match links with O => None | S l => walk root f l (if a then root else cur) (t ++ r) end
           | Some _ => walk root f links i r end end
        | _ => None end = Some i) by (destruct links; exact H). clear H.
      destruct (f cur) as [[| | |entry w [|]]|] eqn:E; try discriminate. destruct (entry c) as [j|] eqn:Ec; [|discriminate].
      destruct (f j) as [[| |a t|e' w' x']|] eqn:Ej; try discriminate.
      + destruct (IH _ _ H') as (n & L & D). exists n. split; [exact L|]. eapply L_enter; eauto; congruence.
      + destruct (IH _ _ H') as (n & L & D). exists n. split; [exact L|]. eapply L_enter; eauto; congruence.
      + destruct links as [|l]; [discriminate|]. destruct (IHl l ltac:(lia) _ _ _ H') as (n & L & D). exists (S n). split; [lia|]. eapply L_link; eauto.
      + destruct (IH _ _ H') as (n & L & D). exists n. split; [exact L|]. eapply L_enter; eauto; congruence. }
  assert (G2 : forall cur cs n i, leads root f cur cs n i -> forall links, n <= links -> walk root f links cur cs = Some i).
  { intros cur cs n i D. induction D as [i E|cur entry w c j r n i E Ec Ej Nl D IH|cur entry w c j a t r n i E Ec Ej D IH]; intros links L.
    - destruct links; cbn; destruct (f i); congruence.
    - assert (Goal_ : match f cur with
        | Some (NDir entry _ true) => match entry c with None => None | Some i => match f i with None => None
           | Some (NLink a t) => match links with O => None | S l => walk root f l (if a then root else cur) (t ++ r) end
           | Some _ => walk root f links i r end end
        | _ => None end = Some i); [|destruct links; exact Goal_].
      rewrite E, Ec. destruct (f j) as [[| |a t|]|] eqn:Fj; try congruence; try (now apply IH); try (now destruct (Nl a t)).
    - destruct links as [|l]; [lia|]. cbn. rewrite E, Ec, Ej. apply IH. lia. }
  intros links cur cs i. split; [apply G1|]. intros (n & L & D). now apply (G2 _ _ _ _ D).
Qed.
Lemma leads_exists f cur cs n i : leads root f cur cs n i -> f i <> None.
Proof. induction 1; auto. Qed.
(** A longer path goes through where the shorter one leads. *)
Lemma leads_split f cur a m d : leads root f cur a m d -> forall b n i, leads root f cur (a ++ b) n i -> exists n', n = m + n' /\ leads root f d b n' i.
Proof.
  induction 1 as [i E|cur entry w c j r m d E Ec Ej Nl D IH|cur entry w c j a t r m d E Ec Ej D IH]; intros b n i' L; cbn [app] in L.
  - exists n. auto.
  - inversion L as [|? entry' w' ? j' ? ? ? E' Ec' Ej' Nl' D'|? entry' w' ? j' a' t' ? ? ? E' Ec' Ej' D']; subst; rewrite E in E'; injection E' as <- <-; rewrite Ec in Ec'; injection Ec' as <-; [|now destruct (Nl a' t')].
    now apply IH.
  - inversion L as [|? entry' w' ? j' ? ? ? E' Ec' Ej' Nl' D'|? entry' w' ? j' a' t' ? ? ? E' Ec' Ej' D']; subst; rewrite E in E'; injection E' as <- <-; rewrite Ec in Ec'; injection Ec' as <-; [now destruct (Nl' a t)|].
    rewrite Ej in Ej'. injection Ej' as <- <-. rewrite app_assoc in D'. destruct (IH _ _ _ D') as (n' & -> & L'). exists n'. split; [lia|exact L'].
Qed.
Lemma leads_snoc f cur a m d : leads root f cur a m d -> forall entry w c j, f d = Some (NDir entry w true) -> entry c = Some j -> f j <> None ->
  (forall a t, f j <> Some (NLink a t)) -> leads root f cur (a ++ [c]) m j.
Proof.
  induction 1 as [i E|cur entry w c j r m d E Ec Ej Nl D IH|cur entry w c j a t r m d E Ec Ej D IH]; intros entry' w' c' j' E' Ec' Ej' Nl'; cbn [app].
  - eapply L_enter; eauto. now constructor.
  - eapply L_enter; eauto.
  - eapply L_link; eauto. rewrite app_assoc. eapply IH; eauto.
Qed.
Lemma leads_extends f g : extends f g -> forall cur cs n i, leads root f cur cs n i -> leads root g cur cs n i.
Proof.
  intros X. assert (Ex : forall i, f i <> None -> g i <> None).
  { intros i H. destruct (f i) as [n|] eqn:E; [|congruence]. destruct (X i n E) as [->|(? & ? & ? & ? & _ & -> & _)]; congruence. }
  induction 1 as [i E|cur entry w c j r n i E Ec Ej Nl D IH|cur entry w c j a t r n i E Ec Ej D IH].
  - constructor. auto.
  - assert (Nl' : forall a t, g j <> Some (NLink a t)).
    { intros a t G. destruct (f j) as [k|] eqn:Fj; [|congruence]. destruct (X j k Fj) as [Gj|(? & ? & ? & ? & _ & Gj & _)]; [|congruence]. apply (Nl a t). congruence. }
    destruct (X cur _ E) as [E'|(e & e' & w' & x' & En & E' & Sub)]; [eapply L_enter; eauto|]. injection En as <- <- <-. eapply L_enter; eauto.
  - assert (Ej' : g j = Some (NLink a t)). { destruct (X j _ Ej) as [|(? & ? & ? & ? & ? & _)]; [auto|discriminate]. }
    destruct (X cur _ E) as [E'|(e & e' & w' & x' & En & E' & Sub)]; [eapply L_link; eauto|]. injection En as <- <- <-. eapply L_link; eauto.
Qed.
End Walk.

Section Props.
Variable root cwd : nat.
Lemma stat_spec f p n : stat root cwd f p = Some n <-> exists i, names_file root cwd f p i /\ f i = Some n.
Proof.
  unfold stat, names_file, start, max_links. destruct (walk root f 40 (if absolute p then root else cwd) (names p)) as [i|] eqn:E.
  - apply walk_leads in E. split.
    + intros H. exists i. auto.
    + intros (j & N & H). apply walk_leads in E. apply walk_leads in N. congruence.
  - split; [discriminate|]. intros (j & N & H). apply walk_leads in N. congruence.
Qed.
End Props.
(** C103: on every file system, the answers say exactly what the path names, links followed; a path is never both a file and a directory. *)
Theorem C103_posix_queries : forall root cwd f p,
  (PathExists root cwd f p = true <-> exists i, names_file root cwd f p i) /\
  (IsFile root cwd f p = true <-> exists i, names_file root cwd f p i /\ f i = Some NReg) /\
  (IsDirectory root cwd f p = true <-> exists i e w x, names_file root cwd f p i /\ f i = Some (NDir e w x)) /\
  (IsFile root cwd f p && IsDirectory root cwd f p = false) /\
  (IsFile root cwd f p || IsDirectory root cwd f p = true -> PathExists root cwd f p = true).
Proof.
  intros root cwd f p. unfold PathExists, IsFile, IsDirectory. destruct (stat root cwd f p) as [n|] eqn:E.
  - pose proof (proj1 (stat_spec root cwd f p n) E) as (i & N & H).
    assert (U : forall j m, names_file root cwd f p j -> f j = Some m -> m = n). { intros j m Nj Hj. assert (stat root cwd f p = Some m) by (apply stat_spec; eauto). congruence. }
    split; [split; eauto|]. split; [|split; [|split; [destruct n; reflexivity|reflexivity]]].
    + split; [intros X; exists i; split; [exact N|]; destruct n; try discriminate; exact H|intros (j & Nj & Hj); now rewrite <- (U _ _ Nj Hj)].
    + split; [intros X; destruct n; try discriminate; eauto 6|intros (j & e & w & x & Nj & Hj); now rewrite <- (U _ _ Nj Hj)].
  - assert (U : forall j m, names_file root cwd f p j -> f j <> Some m). { intros j m Nj Hj. assert (stat root cwd f p = Some m) by (apply stat_spec; eauto). congruence. }
    assert (V : forall j, ~ names_file root cwd f p j). { intros j Nj. pose proof Nj as (k & _ & L). apply leads_exists in L. destruct (f j) eqn:Ej; [|congruence]. now apply (U j n Nj). }
    split; [split; [discriminate|intros (j & Nj); now destruct (V j)]|]. split; [split; [discriminate|intros (j & Nj & _); now destruct (V j)]|].
    split; [split; [discriminate|intros (j & e & w & x & Nj & _); now destruct (V j)]|]. split; [reflexivity|discriminate].
Qed.
Print Assumptions C103_posix_queries.
(** Windows, for all 2^32 attribute words: files are what is neither directory nor device. *)
Theorem C103_windows_queries : forall attr, 
  (WinPathExists attr = true <-> attr <> 4294967295%N) /\
  (WinIsFile attr = true <-> attr <> 4294967295%N /\ N.testbit attr 4 = false /\ N.testbit attr 6 = false) /\
  (WinIsDirectory attr = true <-> attr <> 4294967295%N /\ N.testbit attr 4 = true /\ N.testbit attr 6 = false) /\
  (WinIsFile attr && WinIsDirectory attr = false) /\ (WinIsFile attr || WinIsDirectory attr = true -> WinPathExists attr = true).
Proof.
  intros attr. unfold WinPathExists, WinIsFile, WinIsDirectory, INVALID_FILE_ATTRIBUTES, FILE_ATTRIBUTE_DIRECTORY, FILE_ATTRIBUTE_DEVICE.
  change (N.lor 16 64) with 80%N.
  assert (B : N.land attr 80 = ((if N.testbit attr 4 then 16 else 0) + (if N.testbit attr 6 then 64 else 0))%N).
  { apply N.bits_inj. intros k. rewrite N.land_spec.
    destruct (N.eq_dec k 4) as [->|H4]; [destruct (N.testbit attr 4), (N.testbit attr 6); reflexivity|].
    destruct (N.eq_dec k 6) as [->|H6]; [destruct (N.testbit attr 4), (N.testbit attr 6); reflexivity|].
    assert (Z : forall v, In v [0; 16; 64; 80]%N -> N.testbit v k = false).
    { intros v Hv. destruct (N.lt_ge_cases k 8) as [C|C].
      - assert (Hk : In k [0;1;2;3;5;7]%N) by (cbn; lia). cbn in Hv, Hk. 
        repeat match goal with H : _ \/ _ |- _ => destruct H end; subst; try contradiction; reflexivity.
      - cbn in Hv. destruct Hv as [<-|[<-|[<-|[<-|[]]]]]; [apply N.bits_0|..]; apply N.bits_above_log2; cbn; lia. }
    rewrite (Z 80%N) by (cbn; auto). rewrite andb_false_r. symmetry. apply Z. destruct (N.testbit attr 4), (N.testbit attr 6); cbn; auto. }
  rewrite B. destruct (N.eqb_spec attr 4294967295) as [->|Hn].
  - cbn. repeat split; try discriminate; try congruence; intros; tauto.
  - destruct (N.testbit attr 4), (N.testbit attr 6); cbn; repeat split; intros; try tauto; try discriminate; intuition discriminate.
Qed.
Print Assumptions C103_windows_queries.

(** ** C104 *)
Lemma create_extends root cwd f p w x room g : room_ok f room -> CreateDirectory root cwd f p w x room = (true, g) ->
  exists d entry i c cs, room = Some i /\ names p = cs ++ [c] /\ walk root f 40 (start root cwd p) cs = Some d /\ f d = Some (NDir entry true true) /\ entry c = None /\
    g i = Some (NDir (fun k => if N.eqb k dot then Some i else if N.eqb k dotdot then Some d else None) w x) /\
    g d = Some (NDir (fun k => if N.eqb k c then Some i else entry k) true true) /\ (forall j, j <> i -> j <> d -> g j = f j) /\ d <> i.
Proof.
  intros Ro E. unfold CreateDirectory, mkdir in E. destruct (rev (names p)) as [|c parent] eqn:En; [discriminate|].
  destruct (walk root f max_links (start root cwd p) (rev parent)) as [d|] eqn:Ew; [|discriminate].
  destruct (f d) as [[| | |entry [|] [|]]|] eqn:Ed; try discriminate. destruct (entry c) eqn:Ec; [discriminate|]. destruct room as [i|]; [|discriminate]. cbn in Ro. injection E as <-.
  assert (Hdi : d <> i) by congruence. exists d, entry, i, c, (rev parent). split; [reflexivity|].
  split; [rewrite <- (rev_involutive (names p)), En; reflexivity|]. split; [exact Ew|]. split; [exact Ed|]. split; [exact Ec|]. unfold put.
  split; [now rewrite Nat.eqb_refl|]. split; [|split; [|exact Hdi]].
  - destruct (Nat.eqb_spec i d); [congruence|]. now rewrite Nat.eqb_refl.
  - intros j Hi Hd. destruct (Nat.eqb_spec i j); [congruence|]. destruct (Nat.eqb_spec d j); [congruence|reflexivity].
Qed.
(** If CreateDirectory returns true, the path did not exist and is now a directory; nothing is lost, nothing else is changed: apart from the new
    directory and its parent, which gets exactly one new entry, every file is the same; every path that led somewhere still leads there. *)
Theorem C104_true_created : forall root cwd f p w x room g, room_ok f room -> CreateDirectory root cwd f p w x room = (true, g) ->
  PathExists root cwd f p = false /\ IsDirectory root cwd g p = true /\ extends f g /\
  (forall q i, names_file root cwd f q i -> names_file root cwd g q i) /\
  exists d i e cs c, names p = cs ++ [c] /\ names_file root cwd f (Path (absolute p) cs) d /\ f d = Some (NDir e true true) /\
    (exists e', g d = Some (NDir e' true true) /\ e' c = Some i /\ forall k, k <> c -> e' k = e k) /\
    names_file root cwd g p i /\ f i = None /\
    (exists e', g i = Some (NDir e' w x) /\ forall k, e' k <> None -> k = dot /\ e' k = Some i \/ k = dotdot /\ e' k = Some d) /\
    forall j, j <> d -> j <> i -> g j = f j.
Proof.
  intros root cwd f p w x room g Ro E. destruct (create_extends _ _ _ _ _ _ _ _ Ro E) as (d & entry & i & c & cs & -> & En & Ew & Ed & Ec & Gi & Gd & Go & Hdi).
  apply walk_leads in Ew as (m & Lm & D). cbn in Ro.
  assert (X : extends f g).
  { intros j n Hj. destruct (Nat.eq_dec j d) as [->|Hd].
    - right. rewrite Ed in Hj. injection Hj as <-. exists entry, (fun k => if N.eqb k c then Some i else entry k), true, true. split; [reflexivity|]. split; [exact Gd|].
      intros k l Hk. destruct (N.eqb_spec k c); [congruence|exact Hk].
    - left. rewrite Go; [exact Hj|congruence|exact Hd]. }
  assert (Nf : names_file root cwd g p i).
  { exists m. split; [exact Lm|]. rewrite En. eapply leads_snoc; [eapply leads_extends; [exact X|exact D]|exact Gd|cbn; now rewrite N.eqb_refl|congruence|congruence]. }
  split; [|split; [|split; [exact X|split]]].
  - destruct (PathExists root cwd f p) eqn:Pe; [exfalso|reflexivity]. apply C103_posix_queries in Pe as (j & n & _ & L). rewrite En in L.
    destruct (leads_split root f _ _ _ _ D _ _ _ L) as (n' & _ & L'). inversion L' as [|? entry' w' ? j' ? ? ? E' Ec' Ej' Nl' D'|? entry' w' ? j' a' t' ? ? ? E' Ec' Ej' D']; subst; rewrite Ed in E'; injection E' as <- <-; congruence.
  - apply C103_posix_queries. exists i. eauto.
  - intros q j (n & Ln & L). exists n. split; [exact Ln|]. eapply leads_extends; eauto.
  - exists d, i, entry, cs, c. split; [exact En|]. split; [exists m; split; [exact Lm|exact D]|]. split; [exact Ed|].
    split; [eexists; split; [exact Gd|]; cbn; split; [now rewrite N.eqb_refl|intros k Hk; destruct (N.eqb_spec k c); [congruence|reflexivity]]|].
    split; [exact Nf|]. split; [exact Ro|].
    split; [|intros j Hd Hi; now apply Go]. eexists. split; [exact Gi|]. cbn beta. intros k Hk. destruct (N.eqb_spec k dot) as [H1|H1]; [now left|]. destruct (N.eqb_spec k dotdot) as [H2|H2]; [now right|congruence].
Qed.
Print Assumptions C104_true_created.
(** If it returns false, nothing has changed; and it returns true exactly if the parent exists and may be changed, there is no entry of that name
    and there is room. *)
Theorem C104_false_nothing : forall root cwd f p w x room g, CreateDirectory root cwd f p w x room = (false, g) -> g = f.
Proof. intros root cwd f p w x room g. unfold CreateDirectory. destruct (mkdir root cwd f p w x room); [discriminate|congruence]. Qed.
Print Assumptions C104_false_nothing.
Theorem C104_when : forall root cwd f a cs c w x room,
  fst (CreateDirectory root cwd f (Path a (cs ++ [c])) w x room) = true <->
  exists d entry, names_file root cwd f (Path a cs) d /\ f d = Some (NDir entry true true) /\ entry c = None /\ room <> None.
Proof.
  intros root cwd f a cs c w x room. unfold CreateDirectory, mkdir. cbn [names]. rewrite rev_app_distr. cbn [rev app]. rewrite rev_involutive.
  change (start root cwd (Path a (cs ++ [c]))) with (if a then root else cwd). unfold max_links. destruct (walk root f 40 (if a then root else cwd) cs) as [d|] eqn:Ew.
  - pose proof (proj1 (walk_leads root f _ _ _ _) Ew) as Nd. split.
    + intros H. exists d. destruct (f d) as [[| | |entry [|] [|]]|] eqn:Ed; try discriminate. exists entry. split; [exact Nd|]. split; [reflexivity|].
      destruct (entry c); [discriminate|]. destruct room; [|discriminate]. split; congruence.
    + intros (d' & entry & Nd' & Ed & Ec & Hr). assert (Some d = Some d') by (rewrite <- Ew; apply walk_leads; exact Nd'). injection H as <-. rewrite Ed, Ec. destruct room; [reflexivity|congruence].
  - split; [discriminate|]. intros (d' & entry & Nd' & _). apply walk_leads in Nd'. cbn [absolute names] in Nd'. congruence.
Qed.
Print Assumptions C104_when.
(** Whatever any number of processes do, as long as nobody makes the path disappear, at most one of all calls for it returns true, and none if it exists
    at the beginning; once one has returned true the path exists. *)
Theorem C104_one_winner : forall root cwd p f es rs g, history root cwd p f es rs g ->
  count_occ Bool.bool_dec rs true <= 1 /\
  (PathExists root cwd f p = true -> count_occ Bool.bool_dec rs true = 0 /\ PathExists root cwd g p = true) /\
  (In true rs -> PathExists root cwd g p = true).
Proof.
  intros root cwd p f es rs g H. induction H as [f|f w x room es rs g Ro H IH|f q w x room es rs g Hq Ro H IH|f f' es rs g Hk H IH].
  - cbn. split; [lia|]. split; [auto|contradiction].
  - destruct (CreateDirectory root cwd f p w x room) as [[|] f1] eqn:E; cbn [fst snd] in *.
    + destruct (C104_true_created _ _ _ _ _ _ _ _ Ro E) as (N0 & D1 & _). assert (P1 : PathExists root cwd f1 p = true) by (apply C103_posix_queries; now rewrite D1, orb_true_r).
      destruct IH as (I1 & I2 & I3). destruct (I2 P1) as [I4 I5]. rewrite count_occ_cons_eq by reflexivity. split; [lia|]. split; [congruence|auto].
    + apply C104_false_nothing in E. subst f1. destruct IH as (I1 & I2 & I3). rewrite count_occ_cons_neq by discriminate. split; [exact I1|]. split; [exact I2|]. intros [X|X]; [discriminate|auto].
  - assert (P1 : PathExists root cwd f p = true -> PathExists root cwd (snd (CreateDirectory root cwd f q w x room)) p = true).
    { intros P. destruct (CreateDirectory root cwd f q w x room) as [[|] f1] eqn:E; cbn [snd].
      - apply (proj1 (C103_posix_queries root cwd f p)) in P as [i Ni]. apply (proj1 (C103_posix_queries root cwd f1 p)). exists i. destruct (C104_true_created _ _ _ _ _ _ _ _ Ro E) as (_ & _ & _ & K & _). now apply K.
      - apply C104_false_nothing in E. now subst. }
    destruct IH as (I1 & I2 & I3). split; [exact I1|]. split; [auto|exact I3].
  - destruct IH as (I1 & I2 & I3). split; [exact I1|]. split; [auto|exact I3].
Qed.
Print Assumptions C104_one_winner.

(** A disk: / (0) has home (1), a file (2), a dangling link (3), a link to home (4) and a loop (5). *)
Definition nm_home : N := 1%N. Definition nm_file : N := 2%N. Definition nm_dangling : N := 3%N. Definition nm_link : N := 4%N. Definition nm_loop : N := 5%N. Definition nm_new : N := 6%N.
Definition demo : disk := fun i =>
  match i with
  | 0 => Some (NDir (fun c => if N.eqb c dot then Some 0 else if N.eqb c dotdot then Some 0 else if N.eqb c nm_home then Some 1 else if N.eqb c nm_file then Some 2 else
                              if N.eqb c nm_dangling then Some 3 else if N.eqb c nm_link then Some 4 else if N.eqb c nm_loop then Some 5 else None) true true)
  | 1 => Some (NDir (fun c => if N.eqb c dot then Some 1 else if N.eqb c dotdot then Some 0 else None) true true)
  | 2 => Some NReg
  | 3 => Some (NLink true [nm_new])
  | 4 => Some (NLink false [dot; nm_home])
  | 5 => Some (NLink false [nm_loop])
  | _ => None
  end.
(** That PathExists returns false, the parent may be changed and there is room does not mean that CreateDirectory succeeds: the path may be a link
    that leads nowhere. *)
Theorem C104_absent_not_creatable_refuted : exists root cwd f a cs c d entry room, room_ok f (Some room) /\
  PathExists root cwd f (Path a (cs ++ [c])) = false /\ names_file root cwd f (Path a cs) d /\ f d = Some (NDir entry true true) /\
  forall w x, CreateDirectory root cwd f (Path a (cs ++ [c])) w x (Some room) = (false, f).
Proof.
  exists 0, 1, demo, true, [], nm_dangling, 0. eexists. exists 9. split; [reflexivity|]. split; [vm_compute; reflexivity|].
  split; [exists 0; split; [lia|]; constructor; discriminate|]. split; [reflexivity|]. reflexivity.
Qed.
Print Assumptions C104_absent_not_creatable_refuted.
Example C103_nonvacuous : IsFile 0 1 demo (Path false [dotdot; nm_file]) = true /\ IsDirectory 0 1 demo (Path true [nm_link; dotdot; nm_link]) = true /\
  PathExists 0 1 demo (Path true [nm_dangling]) = false /\ PathExists 0 1 demo (Path true [nm_loop]) = false /\ PathExists 0 1 demo (Path true [nm_file; dot]) = false /\
  WinIsDirectory 48 = true /\ WinIsFile 32 = true /\ WinPathExists 64 = true /\ WinIsFile 64 = false.
Proof. repeat split; vm_compute; reflexivity. Qed.
Example C104_nonvacuous : fst (CreateDirectory 0 1 demo (Path true [nm_link; nm_new]) true true (Some 9)) = true /\
  history 0 1 (Path true [nm_link; nm_new]) demo
    [Create (Path true [nm_link; nm_new]) true true (Some 9); Create (Path true [nm_link; nm_new; nm_new]) true true (Some 10); Create (Path true [nm_link; nm_new]) true true (Some 11)]
    [true; false] (snd (CreateDirectory 0 1 (snd (CreateDirectory 0 1 demo (Path true [nm_link; nm_new]) true true (Some 9))) (Path true [nm_link; nm_new; nm_new]) true true (Some 10))).
Proof.
  split; [vm_compute; reflexivity|]. change [true; false] with [fst (CreateDirectory 0 1 demo (Path true [nm_link; nm_new]) true true (Some 9)); false].
  apply H_create; [reflexivity|]. apply H_create_other; [discriminate|reflexivity|].
  set (f := snd (CreateDirectory 0 1 (snd (CreateDirectory 0 1 demo (Path true [nm_link; nm_new]) true true (Some 9))) (Path true [nm_link; nm_new; nm_new]) true true (Some 10))).
  assert (E : CreateDirectory 0 1 f (Path true [nm_link; nm_new]) true true (Some 11) = (false, f)) by reflexivity.
  pose proof (H_create 0 1 (Path true [nm_link; nm_new]) f true true (Some 11) [] [] f) as H. rewrite E in H. cbn [fst snd] in H. apply H; [reflexivity|constructor].
Qed.
