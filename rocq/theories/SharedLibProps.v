(** Properties C88 (amtl/os/am-shared-library.h) and C91 (amtl/os/am-system-errors.h). *)
From Verif Require Import Base RefcountModel RefcountSpec RefcountProofs RefcountState RefcountStep RefcountAlias StrModel StrSpec StrProofs
  SharedLibModel SharedLibSpec SharedLibProofs.
Local Open Scope nat_scope.

(** C88: along every legal history nothing faults, and the books are in order at its end - hence, prefixes of legal
    histories being legal, after every event: every handle obtained was closed once for each of its owners that is
    gone, not for those that are left, and the owners left are exactly those somebody refers to. *)
Theorem C88_closed_exactly_once : forall debug n es, ev_legal debug (fresh n) es ->
  exists x, ev_run debug (fresh n) es = Ok x /\ opened x = flat_map obtained es /\ books x.
Proof.
  intros debug n es L. destruct (ev_run_ok debug es (fresh n) (sound0 n) L) as (x & E & Hs & O).
  exists x. split; [exact E|]. split; [exact O|]. now apply sound_books.
Qed.
Print Assumptions C88_closed_exactly_once.

(** So: when no references are left, every handle has been closed as often as it was obtained; *)
Theorem C88_all_closed : forall debug n es, ev_legal debug (fresh n) es ->
  exists x, ev_run debug (fresh n) es = Ok x
    /\ ((forall o, handles (rs x) o = 0) -> forall h, count h (closed x) = count h (flat_map obtained es)).
Proof.
  intros debug n es L. destruct (C88_closed_exactly_once debug n es L) as (x & E & O & B1 & B2 & B3).
  exists x. split; [exact E|]. intros Z h. rewrite <- O, B2. destruct (owners x h) as [|o l] eqn:Eo; [cbn; lia|].
  assert (Hin : In o (owners x h)) by (rewrite Eo; now left). apply B3 in Hin. specialize (Z o). lia.
Qed.
Print Assumptions C88_all_closed.

(** and lookup through any reference works on a handle that is not yet closed. *)
Theorem C88_lookup : forall debug n es, ev_legal debug (fresh n) es ->
  exists x, ev_run debug (fresh n) es = Ok x
    /\ forall o, 0 < handles (rs x) o ->
         lookup x o = Ok (lib_of (libs x) o)
         /\ forall h, lib_of (libs x) o = Some h -> count h (closed x) < count h (opened x).
Proof.
  intros debug n es L. destruct (C88_closed_exactly_once debug n es L) as (x & E & O & B1 & B2 & B3).
  exists x. split; [exact E|]. intros o Ho. split.
  - unfold lookup, get_alive. destruct B1 as (B1 & C2 & _). assert (Hlt : o < length (objs (hp (rs x)))).
    { exact (C2 o Ho). }
    destruct (B1 o Hlt) as (ob & Eo & [(G1 & G2 & _)|(G1 & _)]); [|lia].
    rewrite (slot_get_ok _ _ _ Eo). cbn [bind]. rewrite G2. reflexivity.
  - intros h Eh. rewrite (B2 h). assert (Hin : In o (owners x h)) by (apply B3; auto).
    destruct (owners x h); [contradiction|cbn; lia].
Qed.
Print Assumptions C88_lookup.

(** Open, in every reachable situation: on success the new reference [v] is the only one to a new object that owns the
    handle, and nothing is closed; on failure [v] is null, nothing is closed and nobody else notices. *)
Theorem C88_open : forall debug n es v tmp r, ev_legal debug (fresh n) es ->
  exists x, ev_run debug (fresh n) es = Ok x
    /\ (unused (rs x) v -> unused (rs x) tmp -> v <> tmp ->
        exists x', ev_step debug x (Open v tmp r) = Ok x'
          /\ closed x' = closed x
          /\ (forall i, i <> v -> nth_error (vars (rs x')) i = nth_error (vars (rs x)) i)
          /\ (forall o, created (rs x) o -> nth_error (objs (hp (rs x'))) o = nth_error (objs (hp (rs x))) o /\ handles (rs x') o = handles (rs x) o
                                            /\ lib_of (libs x') o = lib_of (libs x) o)
          /\ match r with
             | Some h => exists o, ~ created (rs x) o /\ nth_error (vars (rs x')) v = Some (Some (VAl (Some o)))
                           /\ lib_of (libs x') o = Some h /\ handles (rs x') o = 1 /\ opened x' = opened x ++ [h]
             | None => nth_error (vars (rs x')) v = Some (Some (VAl None)) /\ opened x' = opened x
             end).
Proof.
  intros debug n es v tmp r L. destruct (ev_run_ok debug es (fresh n) (sound0 n) L) as (x & E & Hs & O).
  exists x. split; [exact E|]. intros Hv Ht Hne.
  pose proof Hs as (A & Bl & C & D).
  destruct (open_exec debug x v tmp r Bl (conj Hv (conj Ht Hne))) as (x' & E' & O' & C' & L' & (W1 & W2) & Hx).
  destruct (ev_step_ok debug x (Open v tmp r) Hs (conj Hv (conj Ht Hne))) as (x'' & E'' & Hs' & _).
  rewrite E' in E''. injection E'' as <-.
  exists x'. split; [exact E'|]. split; [exact C'|].
  destruct (sinv_balanced _ A) as (A1 & A2 & A3 & A4). destruct Hs' as (A' & _). destruct (sinv_balanced _ A') as (A1' & A2' & A3' & A4').
  assert (Hob : objs (hp (rs x')) = objs (hp (rs x)) ++ [match r with Some _ => Obj 1 Alive [] | None => Obj 0 Dead [] end])
    by (destruct r; apply Hx).
  assert (Hh : forall o ob, nth_error (objs (hp (rs x'))) o = Some ob -> handles (rs x') o = match st ob with Alive => rc ob | _ => 0 end).
  { intros o ob Eo. assert (Hc : created (rs x') o) by (unfold created; apply nth_error_Some; congruence).
    destruct (A1' o Hc) as (ob' & Eo' & [(G1 & G2 & G3 & _)|(G1 & G2 & _)]); rewrite Eo in Eo'; injection Eo' as <-; now rewrite G2. }
  split. { intros i Hi. rewrite W2. destruct (Nat.eqb_spec i v); [contradiction|reflexivity]. }
  split.
  { intros o Hc. unfold created in Hc. assert (Eo : nth_error (objs (hp (rs x'))) o = nth_error (objs (hp (rs x))) o) by (rewrite Hob; now apply nth_error_app1).
    split; [exact Eo|]. split.
    - destruct (A1 o Hc) as (ob & E1 & G). rewrite E1 in Eo. rewrite (Hh _ _ Eo). destruct G as [(G1 & G2 & G3 & _)|(G1 & G2 & _)]; rewrite G2; lia.
    - rewrite L'. unfold lib_of. rewrite nth_error_app1 by lia. reflexivity. }
  destruct r as [h|].
  - exists (length (objs (hp (rs x)))). split; [unfold created; lia|]. split; [rewrite W2, Nat.eqb_refl; reflexivity|]. split; [|split; [|exact O']].
    + rewrite L'. unfold lib_of. rewrite nth_error_app2 by lia. replace (length (objs (hp (rs x))) - length (libs x)) with 0 by lia. reflexivity.
    + rewrite (Hh _ (Obj 1 Alive [])); [reflexivity|]. rewrite Hob, nth_error_app2, Nat.sub_diag by lia. reflexivity.
  - split; [rewrite W2, Nat.eqb_refl; reflexivity|]. rewrite O'. apply app_nil_r.
Qed.
Print Assumptions C88_open.

(** Handles 7 and 9 are opened, one open fails; 7 is shared through a client object; all of it goes away again. *)
Definition history : list event :=
  [Open 0 3 (Some 7); Open 1 3 None; Ref (Destroy 1); FromPath 1 (Some 9); Ref (CtorAlready 2 0);
   Ref (CtorNew 4 1); Ref (AssignMove (LFld 3 0) (LVar 2)); Ref (Destroy 2); Ref (Destroy 1); FromHandle 1 7].
Ltac elegal1 := constructor; [|let s := fresh "s" in let E := fresh "E" in intros s E; vm_compute in E; injection E as <-].
Ltac esec := first [ reflexivity | exact Logic.I | discriminate | split; esec | (left; reflexivity) | (right; reflexivity)
  | eapply reach_var with (v := 2); [discriminate|reflexivity]
  | eapply reach_var with (v := 4); [discriminate|reflexivity]
  | eapply reach_fld with (y := 3) (j := 0); [eapply reach_var with (v := 4); [discriminate|reflexivity]|discriminate|reflexivity] ].
Example C88_nonvacuous : ev_legal true (fresh 5) history.
Proof. unfold history. repeat (elegal1; [esec|]). constructor. Qed.
Example C88_run : exists x, ev_run true (fresh 5) history = Ok x /\ opened x = [7; 9; 7] /\ closed x = [9].
Proof. eexists; vm_compute; repeat split. Qed.

(** The error buffer: after a failed Open on a POSIX system it holds as much of dlerror() as fits, terminated, and is
    otherwise unchanged; nothing is written on success, or without a buffer. *)
Theorem C88_error_posix : forall w msvc sys dlerror s buf max,
  cstring dlerror s -> 0 < max <= length buf ->
  let k := Nat.min (length s) (max - 1) in
  open_error false w msvc sys dlerror None (Some buf) max = Ok (Some (firstn k s ++ [0%N] ++ skipn (k + 1) buf)).
Proof.
  intros w msvc sys dlerror s buf max Hs Hm k. unfold open_error. destruct (Nat.eqb_spec max 0); [lia|].
  rewrite (safe_strcpy_ok w buf max dlerror s Hs Hm). cbn [bind]. fold k. now rewrite Nat.add_1_r.
Qed.
Print Assumptions C88_error_posix.
Theorem C88_error_untouched : forall windows w msvc sys dlerror r error max,
  r <> None \/ error = None \/ max = 0 -> open_error windows w msvc sys dlerror r error max = Ok error.
Proof.
  intros windows w msvc sys dlerror r error max H. unfold open_error. destruct r; [reflexivity|]. destruct error; [|reflexivity].
  destruct (Nat.eqb_spec max 0); [reflexivity|]. destruct H as [H|[H|H]]; congruence.
Qed.
Print Assumptions C88_error_untouched.

(** ** System error texts *)
(** What is assumed of the system: texts without NUL, printf-sized. *)
Definition sys_wf (s : system) : Prop :=
  match s with
  | Windows m _ c => (forall t, m = Some t -> ~ In 0%N t) /\ ~ In 0%N c /\ formatted_wf (Text c)
  | Glibc _ m => ~ In 0%N m /\ formatted_wf (Text m)
  | Posix m _ => ~ In 0%N m
  end.
(** The message a user expects to find. *)
Definition sys_message (s : system) (max : nat) : list N :=
  match s with
  | Windows (Some t) _ c => if length t <? max then t else firstn (max - 1) c
  | Windows None _ c => firstn (max - 1) c
  | Glibc _ m | Posix m _ => firstn (max - 1) m
  end.
(** The buffer holds [s], terminated, and is as before beyond the limit. *)
Definition filled (old new : list N) (max : nat) (s : list N) : Prop :=
  length new = length old /\ cstring new s /\ skipn max new = skipn max old.

Lemma cstring_of (s rest : list N) : ~ In 0%N s -> cstring (s ++ 0%N :: rest) s.
Proof. intros H. exists rest. auto. Qed.
Lemma filled_of old max (s : list N) : ~ In 0%N s -> length s < max <= length old -> filled old (s ++ 0%N :: skipn (S (length s)) old) max s.
Proof.
  intros Hn Hm. split; [rewrite app_length; cbn [length]; rewrite skipn_length; lia|]. split; [now apply cstring_of|].
  rewrite skipn_app. rewrite skipn_all2 by lia. cbn [app]. replace (max - length s) with (S (max - length s - 1)) by lia. rewrite skipn_cons.
  rewrite skipn_add. f_equal. lia.
Qed.
Lemma not_in_firstn (n : nat) (s : list N) : ~ In 0%N s -> ~ In 0%N (firstn n s).
Proof. intros H C. apply H. rewrite <- (firstn_skipn n s). apply in_or_app. now left. Qed.
Lemma firstn_min (s : list N) k : firstn (Nat.min (length s) k) s = firstn k s.
Proof. destruct (Nat.le_ge_cases (length s) k); [rewrite Nat.min_l, firstn_all, firstn_all2 by lia; reflexivity|now rewrite Nat.min_r by lia]. Qed.

Lemma sprintf_filled w msvc buf old max c : (32 <= w)%N -> (N.of_nat max <= 2 ^ (w - 1))%N -> 0 < max <= length buf -> ~ In 0%N c -> formatted_wf (Text c) ->
  length buf = length old -> skipn max buf = skipn max old ->
  exists b n, safe_sprintf w msvc buf max (Text c) = Ok (b, n) /\ filled old b max (firstn (max - 1) c).
Proof.
  intros Hw Hx Hm Hc Hf Hl Hsk. eexists _, _. split; [apply (safe_sprintf_text w msvc buf max c Hw Hm Hx Hf)|].
  rewrite firstn_min. set (s := firstn (max - 1) c). assert (Ls : length s = Nat.min (length c) (max - 1)) by (unfold s; rewrite firstn_length; lia).
  rewrite <- Ls. destruct (filled_of buf max s) as (F1 & F2 & F3); [now apply not_in_firstn|lia|].
  split; [congruence|]. split; [exact F2|congruence].
Qed.

(** C91: except for the XSI strerror_r when the message does not fit, the buffer is always terminated within maxlength,
    holding the message (truncated, or the "error code" text). *)
Theorem C91_system_error_partial : forall w msvc sys buf max,
  (32 <= w)%N -> (N.of_nat max <= 2 ^ (w - 1))%N -> 0 < max <= length buf -> sys_wf sys ->
  match sys with Posix m _ => length m < max | _ => True end ->
  exists b, format_system_error w msvc sys buf max = Ok b /\ filled buf b max (sys_message sys max).
Proof.
  intros w msvc sys buf max Hw Hx Hm Hs Hp. destruct sys as [m j c|[|] m|m j]; cbn [sys_wf] in Hs; cbn [format_system_error sys_message].
  - destruct Hs as (H1 & H2 & H3).
    assert (Fail : exists b, (do error <- blit buf 0 (firstn max j); do (error, _) <- safe_sprintf w msvc error max (Text c); Ok error) = Ok b
                             /\ filled buf b max (firstn (max - 1) c)).
    { rewrite blit0_ok by (rewrite firstn_length; lia). cbn [bind].
      destruct (sprintf_filled w msvc (firstn max j ++ skipn (length (firstn max j)) buf) buf max c Hw Hx) as (b & n & E & F); auto.
      - rewrite app_length, skipn_length, firstn_length. lia.
      - rewrite app_length, skipn_length, firstn_length. lia.
      - rewrite skipn_app, skipn_all2 by (rewrite firstn_length; lia). cbn [app]. rewrite skipn_add. f_equal. rewrite firstn_length. lia.
      - exists b. rewrite E. auto. }
    destruct m as [t|]; [|exact Fail]. destruct (Nat.ltb_spec (length t) max) as [Hlt|Hge]; [|exact Fail].
    rewrite blit0_ok by (rewrite app_length; cbn; lia). eexists. split; [reflexivity|].
    rewrite app_length, <- app_assoc. cbn [length app]. rewrite Nat.add_1_r. apply filled_of; auto; lia.
  - destruct (Nat.eqb_spec max 0); [lia|]. rewrite blit0_ok by (rewrite app_length, firstn_length; cbn; lia).
    eexists. split; [reflexivity|]. rewrite app_length, <- app_assoc. cbn [length app]. rewrite Nat.add_1_r. apply filled_of; [now apply not_in_firstn|].
    rewrite firstn_length. lia.
  - destruct Hs as (H1 & H2). destruct (sprintf_filled w msvc buf buf max m Hw Hx Hm H1 H2 eq_refl eq_refl) as (b & n & E & F).
    exists b. rewrite E. auto.
  - apply Nat.ltb_lt in Hp as Hp'. rewrite Hp'. rewrite blit0_ok by (rewrite app_length; cbn; lia). eexists. split; [reflexivity|].
    rewrite app_length, <- app_assoc. cbn [length app]. rewrite Nat.add_1_r. rewrite firstn_all2 by lia. apply filled_of; auto; lia.
Qed.
Print Assumptions C91_system_error_partial.
Example C91_nonvacuous :
  format_system_error 64 false (Glibc false [65;66;67]%N) [1;1;1;1]%N 3 = Ok [65;66;0;1]%N
  /\ format_system_error 64 true (Windows None [9;9;9;9;9]%N [69]%N) [1;1;1;1]%N 3 = Ok [69;0;9;1]%N
  /\ format_system_error 64 false (Posix [65;66]%N []) [1;1;1;1]%N 3 = Ok [65;66;0;1]%N.
Proof. repeat split. Qed.

(** The missing case: a POSIX strerror_r that fails with ERANGE may leave anything; FormatSystemError ignores the
    result, so the buffer need not be terminated at all. *)
Theorem C91_system_error_refuted : forall w msvc m j buf max,
  max <= length m -> length j = max -> ~ In 0%N j -> length buf = max ->
  format_system_error w msvc (Posix m j) buf max = Ok j /\ ~ exists s, cstring j s.
Proof.
  intros w msvc m j buf max Hm Hj Hn Hb. cbn [format_system_error]. destruct (Nat.ltb_spec (length m) max); [lia|].
  rewrite <- Hj, firstn_all. rewrite blit0_ok by lia. rewrite skipn_all2 by lia. rewrite app_nil_r. split; [reflexivity|].
  intros (s & rest & -> & _). apply Hn. apply in_or_app. right. now left.
Qed.
Print Assumptions C91_system_error_refuted.

(** With it, the other half of the error buffer of C88: on Windows the buffer is terminated too. *)
Theorem C88_error_windows : forall w msvc m j c dlerror buf max,
  (32 <= w)%N -> (N.of_nat max <= 2 ^ (w - 1))%N -> 0 < max <= length buf -> sys_wf (Windows m j c) ->
  exists b, open_error true w msvc (Windows m j c) dlerror None (Some buf) max = Ok (Some b)
    /\ filled buf b max (sys_message (Windows m j c) max).
Proof.
  intros w msvc m j c dlerror buf max Hw Hx Hm Hs. destruct (C91_system_error_partial w msvc (Windows m j c) buf max Hw Hx Hm Hs Logic.I) as (b & E & F).
  exists b. split; [|exact F]. unfold open_error. destruct (Nat.eqb_spec max 0); [lia|]. now rewrite E.
Qed.
Print Assumptions C88_error_windows.
