(** Property theorems C98 and C99: the restyler's driver. *)
From Verif Require Import Base ToolModel ToolSpec.
Local Open Scope nat_scope.
Local Open Scope list_scope.

(** * C98 *)
(** A file for which the tool reports failure has not been touched, at any moment; without -i no file is touched, and the
    new text is printed. *)
Theorem C98_failure_leaves_file_partial : forall parse_errors new_text in_place f e p h out,
  run_for_path parse_errors new_text in_place f e p = Ok (h, out, false) -> h = [f] /\ out = [].
Proof.
  intros pe nt ip f e p h out H. unfold run_for_path in H. destruct (f p) as [old|]; [|now injection H as <- <-]. destruct (pe old); [now injection H as <- <-|].
  destruct (nt old); cbn [bind] in H; try discriminate. destruct ip; [destruct (can_open e)|]; try discriminate. now injection H as <- <-.
Qed.
Print Assumptions C98_failure_leaves_file_partial.
Theorem C98_print_only : forall parse_errors new_text f e p h out ok,
  run_for_path parse_errors new_text false f e p = Ok (h, out, ok) ->
  h = [f] /\ (ok = true -> exists old, f p = Some old /\ parse_errors old = false /\ new_text old = Ok out).
Proof.
  intros pe nt f e p h out ok H. unfold run_for_path in H. destruct (f p) as [old|] eqn:E; [|injection H as <- <- <-; split; [reflexivity|discriminate]].
  destruct (pe old) eqn:Ep; [injection H as <- <- <-; split; [reflexivity|discriminate]|].
  destruct (nt old) as [t| |] eqn:En; cbn [bind] in H; try discriminate. injection H as <- <- <-. split; [reflexivity|]. intros _. eauto.
Qed.
Print Assumptions C98_print_only.
(** Success in place, if nothing interrupts the run and the system writes everything: the file has the new text, and no
    other file has changed.  Partial: see the refutations. *)
Theorem C98_success_partial : forall parse_errors new_text f e p old t,
  f p = Some old -> parse_errors old = false -> new_text old = Ok t -> can_open e = true -> last (0 :: written e) 0 = length t ->
  exists h, run_for_path parse_errors new_text true f e p = Ok (h, [], true) /\ last h f p = Some t /\ forall g q, In g h -> q <> p -> g q = f q.
Proof.
  intros pe nt f e p old t Ef Ep Et Ec El. unfold run_for_path. rewrite Ef, Ep, Et. cbn [bind]. rewrite Ec. eexists. split; [reflexivity|]. split.
  - assert (L : forall l d, l <> [] -> last (f :: map (fun n => fs_set f p (firstn n t)) l) d = fs_set f p (firstn (last l 0) t)).
    { clear. intros l d Hl. induction l as [|a l IH]; [contradiction|]. destruct l as [|b l]; [reflexivity|]. specialize (IH ltac:(discriminate)). exact IH. }
    rewrite L by discriminate. rewrite El, firstn_all. unfold fs_set. now rewrite N.eqb_refl.
  - intros g q [<-|H] Hq; [reflexivity|]. apply in_map_iff in H as (n & <- & _). unfold fs_set. destruct (N.eqb_spec p q); congruence.
Qed.
Print Assumptions C98_success_partial.
(** Refuted: every successful in-place run has a moment at which the file is empty; a crash there loses the source. *)
Theorem C98_crash_refuted : forall parse_errors new_text f e p h out,
  run_for_path parse_errors new_text true f e p = Ok (h, out, true) -> exists g, In g h /\ g p = Some [].
Proof.
  intros pe nt f e p h out H. unfold run_for_path in H. destruct (f p) as [old|]; [|discriminate]. destruct (pe old); [discriminate|].
  destruct (nt old) as [t| |]; cbn [bind] in H; try discriminate. destruct (can_open e); [|discriminate]. injection H as <- <-.
  exists (fs_set f p []). split; [right; now left|]. unfold fs_set. now rewrite N.eqb_refl.
Qed.
Print Assumptions C98_crash_refuted.
(** Refuted: if the disk is full (after any number [n] of bytes), the tool still reports success; the file has lost its end. *)
Theorem C98_full_disk_refuted : forall parse_errors new_text f p old t n,
  f p = Some old -> parse_errors old = false -> new_text old = Ok t -> n < length t ->
  exists h, run_for_path parse_errors new_text true f (Os true [n]) p = Ok (h, [], true) /\ last h f p = Some (firstn n t) /\ firstn n t <> t.
Proof.
  intros pe nt f p old t n Ef Ep Et L. unfold run_for_path. rewrite Ef, Ep, Et. cbn [bind can_open written map]. eexists. split; [reflexivity|]. split.
  - cbn. unfold fs_set. now rewrite N.eqb_refl.
  - intros E. apply (f_equal (@length N)) in E. rewrite firstn_length in E. lia.
Qed.
Print Assumptions C98_full_disk_refuted.
(** Several files: every file is handled, whether or not earlier ones failed, and the result is true exactly if all were. *)
Theorem C98_all_files : forall parse_errors new_text in_place inputs f h out ok,
  run parse_errors new_text in_place f inputs = Ok (h, out, ok) ->
  exists steps : list (fs * (list fs * text * bool)), length steps = length inputs /\ 
    (forall i p e, nth_error inputs i = Some (p, e) -> exists g r, nth_error steps i = Some (g, r) /\ run_for_path parse_errors new_text in_place g e p = Ok r /\
       g = match i with O => f | S j => match nth_error steps j with Some (g', (h', _, _)) => last h' g' | None => f end end) /\
    ok = forallb (fun s => snd (snd s)) steps /\ out = flat_map (fun s => snd (fst (snd s))) steps.
Proof.
  intros pe nt ip. induction inputs as [|[p e] rest IH]; intros f h out ok H; cbn [run] in H.
  - injection H as <- <- <-. exists []. repeat split; auto. intros [|i] p e X; discriminate.
  - destruct (run_for_path pe nt ip f e p) as [[[h1 o1] k1]| |] eqn:E1; cbn [bind] in H; try discriminate.
    destruct (run pe nt ip (last h1 f) rest) as [[[h2 o2] k2]| |] eqn:E2; cbn [bind] in H; try discriminate. injection H as <- <- <-.
    destruct (IH _ _ _ _ E2) as (st & L & S & Ok2 & Out2). exists ((f, (h1, o1, k1)) :: st). split; [cbn; lia|]. split; [|split].
    + intros [|i] p' e' X; cbn in X.
      * injection X as <- <-. exists f, (h1, o1, k1). auto.
      * destruct (S i p' e' X) as (g & r & A & B & C). exists g, r. split; [exact A|]. split; [exact B|]. destruct i as [|j]; [exact C|]. cbn [nth_error]. rewrite C.
        destruct (nth_error st j) as [[g' [[h' ?] ?]]|] eqn:N; [reflexivity|]. apply nth_error_None in N. assert (nth_error st (Datatypes.S j) <> None) by congruence. apply nth_error_Some in H. lia.
    + cbn. now rewrite Ok2.
    + cbn. now rewrite Out2.
Qed.
Print Assumptions C98_all_files.
Example C98_nonvacuous :
  let f : fs := fun p => if N.eqb p 1 then Some [1; 2; 3]%N else None in
  let nt := fun t : text => Ok (t ++ [9])%N in
  run (fun _ => false) nt true f [(2%N, Os true []); (1%N, Os true [2; 4])] <> Diverge /\
  match run (fun _ => false) nt true f [(2%N, Os true []); (1%N, Os true [2; 4])] with
  | Ok (h, out, ok) => ok = false /\ map (fun g => g 1%N) h = [Some [1; 2; 3]; Some [1; 2; 3]; Some []; Some [1; 2]; Some [1; 2; 3; 9]; Some [1; 2; 3; 9]]%N
  | _ => False
  end.
Proof. vm_compute. split; [discriminate|]. split; reflexivity. Qed.

(** * C99 *)
Lemma c_str_id l : ~ In 0%N l -> c_str l = l.
Proof. induction l as [|c l IH]; intros H; [reflexivity|]. cbn. destruct (N.eqb_spec c 0) as [->|]; [exfalso; apply H; now left|]. f_equal. apply IH. intros X. apply H. now right. Qed.
Lemma fgets_line n l rest : ~ In NL l -> length l < n -> fgets n (l ++ NL :: rest) = (l ++ [NL], rest).
Proof.
  revert n. induction l as [|c l IH]; intros n H L; (destruct n as [|n]; [cbn in L; lia|]); cbn [fgets app].
  - reflexivity.
  - destruct (N.eqb_spec c NL) as [->|]; [exfalso; apply H; now left|]. rewrite IH; [reflexivity| |cbn in L; lia]. intros X. apply H. now right.
Qed.
Lemma begins_spec s l : ~ In NL s -> begins s (l ++ [NL]) = true <-> starts_with s l.
Proof.
  intros H. unfold begins. destruct (list_eq_dec N.eq_dec (firstn (length s) (l ++ [NL])) s) as [E|E]; split; intros X; auto; try discriminate.
  - destruct (Nat.le_gt_cases (length s) (length l)) as [L|L].
    + exists (skipn (length s) l). rewrite firstn_app in E. replace (length s - length l) with 0 in E by lia. cbn in E. rewrite app_nil_r in E. rewrite <- E at 1. now rewrite firstn_skipn.
    + exfalso. apply H. rewrite <- E. rewrite firstn_all2 by (rewrite app_length; cbn; lia). apply in_or_app. right. now left.
  - destruct X as (r & ->). exfalso. apply E. rewrite <- app_assoc. rewrite firstn_app, Nat.sub_diag, firstn_all. cbn. now rewrite app_nil_r.
Qed.
Lemma trim_left_spec l : exists a, l = a ++ trim_left l /\ (forall c, In c a -> space c = true) /\ forall c, nth_error (trim_left l) 0 = Some c -> space c = false.
Proof.
  induction l as [|c l (a & E & W & F)]; [exists []; split; [reflexivity|]; split; [intros c []|discriminate]|]. cbn [trim_left]. destruct (space c) eqn:Ec.
  - exists (c :: a). split; [cbn; now f_equal|]. split; [|exact F]. intros d [<-|H]; auto.
  - exists []. split; [reflexivity|]. split; [intros d []|]. cbn. intros d [= <-]. exact Ec.
Qed.
Lemma trim_right_spec l : exists b, l = trim_right l ++ b /\ (forall c, In c b -> space c = true) /\ forall c r, trim_right l = r ++ [c] -> space c = false.
Proof.
  induction l as [|c l (b & E & W & F)]; [exists []; split; [reflexivity|]; split; [intros c []|intros c [|? r] X; discriminate]|]. cbn [trim_right].
  destruct (trim_right l) as [|x t] eqn:Et.
  - destruct (space c) eqn:Ec.
    + exists (c :: b). split; [cbn in *; now f_equal|]. split; [intros d [<-|H]; auto|]. intros d [|? r] X; discriminate.
    + exists b. split; [cbn in *; now f_equal|]. split; [exact W|]. intros d [|y r] X; [now injection X as <-|]. injection X as _ X. destruct r; discriminate.
  - exists b. split; [cbn in *; now f_equal|]. split; [exact W|]. intros d [|y r] X; [discriminate|]. injection X as -> X. apply (F d r). exact X.
Qed.
Lemma trim_spec l : trimmed l (trim_right (trim_left (l ++ [NL]))).
Proof.
  destruct (trim_left_spec (l ++ [NL])) as (a & Ea & Wa & Fa). set (m := trim_left (l ++ [NL])) in *.
  destruct (trim_right_spec m) as (b & Eb & Wb & Fb). set (x := trim_right m) in *.
  assert (Hx : forall c, nth_error x 0 = Some c -> space c = false).
  { intros c Hc. apply Fa. rewrite Eb. destruct x as [|d x']; [discriminate|]. exact Hc. }
  rewrite Eb in Ea. destruct (exists_last (l := a ++ x ++ b)) as (q & z & Eq); [intros X; rewrite X in Ea; destruct l; discriminate|].
  assert (l = q /\ z = NL) as [-> ->]. { rewrite Eq in Ea. apply app_inj_tail in Ea as [-> <-]. auto. } clear Ea.
  destruct b as [|b0 b'] using rev_ind.
  - rewrite app_nil_r in *. destruct x as [|x0 x'] using rev_ind.
    + rewrite app_nil_r in Eq. subst a. exists q, []. cbn [app]. rewrite app_nil_r. split; [reflexivity|]. split; [intros c Hc; apply Wa, in_or_app; now left|]. split; [discriminate|].
      intros c r X. destruct r; discriminate.
    + exfalso. clear IHx'. rewrite app_assoc in Eq. apply app_inj_tail in Eq as [_ ->]. specialize (Fb NL x' eq_refl). discriminate.
  - clear IHb'. rewrite !app_assoc in Eq. apply app_inj_tail in Eq as [Eq ->]. exists a, b'. split; [now rewrite app_assoc|]. split; [|split; [exact Hx|exact Fb]].
    intros c Hc. apply in_app_or in Hc as [Hc|Hc]; [auto|]. apply Wb, in_or_app. now left.
Qed.
Lemma no_nl s : existsb (N.eqb NL) s = false -> ~ In NL s.
Proof. intros H X. assert (existsb (N.eqb NL) s = true); [|congruence]. apply existsb_exists. exists NL. split; [exact X|reflexivity]. Qed.
Lemma starts_dec s l : ~ In NL s -> {starts_with s l} + {~ starts_with s l}.
Proof. intros H. destruct (begins s (l ++ [NL])) eqn:E; [left; now apply begins_spec in E|right]. intros X. apply (begins_spec s l H) in X. congruence. Qed.
Lemma line_nonempty (l : text) ls : join_lines (l :: ls) <> [].
Proof. cbn. destruct l; discriminate. Qed.
(** One line of the loop. *)
Lemma parse_line fuel l ls pz : plain_line l ->
  parse_paths (S fuel) (join_lines (l :: ls)) pz =
    if begins start_string (l ++ [NL]) then parse_paths fuel (join_lines ls) true
    else if begins end_string (l ++ [NL]) && pz then Ok []
    else if negb pz then parse_paths fuel (join_lines ls) pz
    else match trim_right (trim_left (l ++ [NL])) with [] => parse_paths fuel (join_lines ls) pz | x => do ps <- parse_paths fuel (join_lines ls) pz; Ok (x :: ps) end.
Proof.
  intros (H1 & H2 & H3). assert (E : join_lines (l :: ls) = l ++ NL :: join_lines ls) by (cbn; now rewrite <- app_assoc). rewrite E. cbn [parse_paths].
  destruct (l ++ NL :: join_lines ls) as [|c r] eqn:El; [destruct l; discriminate|]. rewrite <- El. rewrite fgets_line by (auto; lia). cbn zeta.
  rewrite c_str_id; [destruct (trim_right (trim_left (l ++ [NL]))); reflexivity|]. intros X. apply in_app_or in X as [X|[X|[]]]; [auto|discriminate].
Qed.
Lemma parse_step fuel l pz : l <> [] -> parse_paths (S fuel) l pz =
  let (buffer, rest) := fgets 1023 l in
  let line := c_str buffer in
  if begins start_string line then parse_paths fuel rest true
  else if begins end_string line && pz then Ok []
  else if negb pz then parse_paths fuel rest pz
  else match trim_right (trim_left line) with [] => parse_paths fuel rest pz | x => do ps <- parse_paths fuel rest pz; Ok (x :: ps) end.
Proof.
  destruct l as [|c l]; [contradiction|]. intros _. set (cl := c :: l). cbn [parse_paths]. subst cl. cbv iota. destruct (fgets 1023 (c :: l)) as [bf rest]. cbn zeta.
  destruct (trim_right (trim_left (c_str bf))); reflexivity.
Qed.
(** White space is space, \t, \n, \v, \f and \r, and nothing else; lines end in \n. *)
Theorem C99_white_space_bytes : (forall c, space c = true <-> In c [32; 9; 10; 11; 12; 13]%N) /\ NL = 10%N.
Proof.
  split; [|reflexivity]. intros c. unfold space. rewrite Bool.orb_true_iff, Bool.andb_true_iff, N.eqb_eq, !N.leb_le. cbn [In]. lia.
Qed.
Print Assumptions C99_white_space_bytes.

(** The list is the one in the listing.  Partial: lines longer than the buffer (below), and popen() must succeed. *)
Theorem C99_search_paths_partial : forall ls fuel, Forall plain_line ls -> length ls < fuel ->
  exists ps, get_search_paths fuel (Some (join_lines ls)) = Ok ps /\ listing start_string end_string ls ps.
Proof.
  intros ls fuel HP HF. unfold get_search_paths.
  assert (NS : ~ In NL start_string) by (apply no_nl; reflexivity). assert (NE : ~ In NL end_string) by (apply no_nl; reflexivity).
  assert (G : forall ls fuel, Forall plain_line ls -> length ls < fuel -> exists ps, parse_paths fuel (join_lines ls) true = Ok ps /\ paths_of start_string end_string ls ps).
  { clear - NS NE. induction ls as [|l ls IH]; intros fuel HP HF; (destruct fuel as [|fuel]; [cbn in HF; lia|]); [exists []; split; [reflexivity|constructor]|].
    inversion HP; subst. destruct (IH fuel H2 ltac:(cbn in HF; lia)) as (ps & E & P). rewrite parse_line by assumption.
    destruct (begins start_string (l ++ [NL])) eqn:B1.
    - exists ps. split; [exact E|]. apply paths_again; [now apply begins_spec|exact P].
    - assert (N1 : ~ starts_with start_string l) by (intros X; apply (begins_spec _ _ NS) in X; congruence).
      destruct (begins end_string (l ++ [NL])) eqn:B2; cbn [andb negb].
      + exists []. split; [reflexivity|]. apply paths_stop; [exact N1|now apply begins_spec].
      + assert (N2 : ~ starts_with end_string l) by (intros X; apply (begins_spec _ _ NE) in X; congruence).
        pose proof (trim_spec l) as T. destruct (trim_right (trim_left (l ++ [NL]))) as [|x r]; rewrite E; cbn [bind].
        * exists ps. split; [reflexivity|]. now apply paths_blank.
        * eexists. split; [reflexivity|]. apply paths_line; auto. discriminate. }
  revert fuel HP HF. induction ls as [|l ls IH]; intros fuel HP HF; (destruct fuel as [|fuel]; [cbn in HF; lia|]).
  - exists []. split; [reflexivity|]. left. auto.
  - inversion HP; subst. rewrite parse_line by assumption. destruct (begins start_string (l ++ [NL])) eqn:B1.
    + destruct (G ls fuel H2 ltac:(cbn in HF; lia)) as (ps & E & P). exists ps. split; [exact E|]. right. exists [], l, ls. repeat split; auto. now apply begins_spec.
    + assert (N1 : ~ starts_with start_string l) by (intros X; apply (begins_spec _ _ NS) in X; congruence).
      rewrite andb_false_r. cbn [negb]. destruct (IH fuel H2 ltac:(cbn in HF; lia)) as (ps & E & [[F ->]|(bf & l0 & af & -> & F & S & P)]); (eexists; split; [exact E|]).
      * left. auto.
      * right. exists (l :: bf), l0, af. repeat split; auto.
Qed.
Print Assumptions C99_search_paths_partial.
(** Refuted: a directory of 1023 characters or more is read as two (neither of which is in the listing). *)
Theorem C99_long_line_refuted : forall x y fuel,
  length x = 1023 -> length y < 1023 -> y <> [] -> 4 <= fuel -> Forall (fun c => space c = false /\ c <> 0%N) (x ++ y) ->
  ~ starts_with start_string x -> ~ starts_with end_string x -> ~ starts_with start_string y -> ~ starts_with end_string y ->
  get_search_paths fuel (Some (join_lines [start_string; x ++ y; end_string])) = Ok [x; y].
Proof.
  intros x y fuel Lx Ly Ny Hf HA S1 E1 S2 E2. do 4 (destruct fuel as [|fuel]; [lia|]). clear Hf.
  assert (NS : ~ In NL start_string) by (apply no_nl; reflexivity). assert (NE : ~ In NL end_string) by (apply no_nl; reflexivity).
  assert (P0 : plain_line start_string).
  { split; [exact NS|]. split; [|vm_compute; lia]. cbn. intuition discriminate. }
  assert (P1 : plain_line end_string).
  { split; [exact NE|]. split; [|vm_compute; lia]. cbn. intuition discriminate. }
  unfold get_search_paths. rewrite (parse_line (S (S (S fuel))) start_string [x ++ y; end_string] false P0).
  assert (B0 : begins start_string (start_string ++ [NL]) = true) by (apply begins_spec; [exact NS|exists []; now rewrite app_nil_r]). rewrite B0.
  rewrite Forall_app in HA. destruct HA as [Hx Hy].
  assert (Clean : forall z, Forall (fun c => space c = false /\ c <> 0%N) z -> ~ In NL z /\ ~ In 0%N z).
  { intros z Hz. rewrite Forall_forall in Hz. split; intros X; destruct (Hz _ X) as [A B]; [discriminate|congruence]. }
  destruct (Clean x Hx) as [Nx Zx], (Clean y Hy) as [Nyl Zy].
  assert (Trim : forall z, Forall (fun c => space c = false /\ c <> 0%N) z -> trim_right (trim_left z) = z).
  { clear. intros z Hz. assert (trim_left z = z) as ->. { destruct z as [|c z]; [reflexivity|]. inversion Hz as [|? ? [A _] _]; subst. cbn. now rewrite A. }
    induction z as [|c z IH]; [reflexivity|]. inversion Hz as [|? ? [A _] B]; subst. cbn [trim_right]. rewrite (IH B). destruct z; [now rewrite A|reflexivity]. }
  assert (J : join_lines [x ++ y; end_string] = x ++ (y ++ NL :: join_lines [end_string])) by (cbn [join_lines flat_map]; now rewrite <- !app_assoc).
  rewrite J.
  assert (Fg : forall n z r, length z = n -> ~ In NL z -> fgets n (z ++ r) = (z, r)).
  { clear. induction n as [|n IH]; intros z r L N; destruct z as [|c z]; try discriminate; [reflexivity|]. cbn. destruct (N.eqb_spec c NL) as [->|]; [exfalso; apply N; now left|].
    rewrite IH; [reflexivity|cbn in L; lia|]. intros X. apply N. now right. }
  rewrite parse_step by (destruct x; discriminate). rewrite (Fg 1023 x _ Lx Nx). cbn zeta.
  rewrite (c_str_id x Zx).
  assert (Bn : forall s z, length s <= length z -> ~ starts_with s z -> begins s z = false).
  { intros s z Lz H. unfold begins. destruct (list_eq_dec _ _ _) as [E|]; [|reflexivity]. exfalso. apply H. exists (skipn (length s) z). rewrite <- E at 1. now rewrite firstn_skipn. }
  rewrite (Bn start_string x) by (auto; rewrite Lx; vm_compute; lia). rewrite (Bn end_string x) by (auto; rewrite Lx; vm_compute; lia). cbn [andb negb].
  rewrite (Trim x Hx). destruct x as [|x0 x']; [discriminate|]. set (x := x0 :: x') in *.
  assert (J2 : y ++ NL :: join_lines [end_string] = join_lines [y; end_string]) by (cbn [join_lines flat_map]; now rewrite <- !app_assoc).
  rewrite J2. assert (Py : plain_line y) by (split; [exact Nyl|split; [exact Zy|lia]]).
  rewrite (parse_line (S fuel) y [end_string] true Py).
  destruct (begins start_string (y ++ [NL])) eqn:B1; [apply begins_spec in B1; [contradiction|exact NS]|].
  destruct (begins end_string (y ++ [NL])) eqn:B2; [apply begins_spec in B2; [contradiction|exact NE]|]. cbn [andb negb].
  assert (Ty : trim_right (trim_left (y ++ [NL])) = y).
  { assert (trim_left (y ++ [NL]) = y ++ [NL]) as ->. { destruct y as [|c y]; [contradiction|]. inversion Hy as [|? ? [A _] _]; subst. cbn. now rewrite A. }
    clear - Hy Ny. induction y as [|c y IH]; [contradiction|]. inversion Hy as [|? ? [A _] B]; subst. cbn [app trim_right]. destruct y as [|d y]; [cbn; now rewrite A|].
    rewrite (IH ltac:(discriminate) B). reflexivity. }
  rewrite Ty. rewrite (parse_line fuel end_string [] true P1).
  assert (B3 : begins start_string (end_string ++ [NL]) = false) by reflexivity. assert (B4 : begins end_string (end_string ++ [NL]) = true) by reflexivity.
  rewrite B3, B4. cbn [andb bind]. destruct y as [|y0 y']; [contradiction|]. reflexivity.
Qed.
Print Assumptions C99_long_line_refuted.
(** Refuted: if the command cannot be started, the null stream is read. *)
Theorem C99_popen_refuted : forall fuel, get_search_paths fuel None = Fault NullDeref.
Proof. reflexivity. Qed.
Print Assumptions C99_popen_refuted.
From Coq Require Import String.
Local Open Scope string_scope. Local Open Scope list_scope.
Example C99_nonvacuous :
  get_search_paths 9 (Some (join_lines [lit "clang version 7"; start_string; lit " /usr/include/c++/8 "; []; lit " /usr/include"; end_string; lit "x"]))
    = Ok [lit "/usr/include/c++/8"; lit "/usr/include"]
  /\ Forall plain_line [lit "clang version 7"; start_string; lit " /usr/include/c++/8 "; []; lit " /usr/include"; end_string; lit "x"]
  /\ get_search_paths 9 (Some (join_lines [start_string; repeat 97%N 1023 ++ [98%N]; end_string])) = Ok [repeat 97%N 1023; [98%N]].
Proof.
  split; [vm_compute; reflexivity|]. split.
  - repeat (constructor; [split; [cbn; intuition discriminate|]; split; [cbn; intuition discriminate|cbn; lia]|]). constructor.
  - apply C99_long_line_refuted; try reflexivity; try lia; try discriminate.
    + cbn. lia.
    + apply Forall_app. split; [|repeat constructor; discriminate]. apply Forall_forall. intros c H. apply repeat_spec in H. subst. split; [reflexivity|discriminate].
    + intros (r & E). apply (f_equal (fun l => nth_error l 0)) in E. vm_compute in E. discriminate.
    + intros (r & E). apply (f_equal (fun l => nth_error l 0)) in E. vm_compute in E. discriminate.
    + intros (r & E). apply (f_equal (fun l => nth_error l 0)) in E. vm_compute in E. discriminate.
    + intros (r & E). apply (f_equal (fun l => nth_error l 0)) in E. vm_compute in E. discriminate.
Qed.
