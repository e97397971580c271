(** Proofs about Split, Join, case conversion and prefix/suffix tests. *)
From Verif Require Import Base StrModel StrSpec StrProofs.

(** * Substring search *)
Lemma is_prefix_spec p s : is_prefix p s = true <-> exists b, s = p ++ b.
Proof.
  revert s; induction p as [|a p IH]; intros s; cbn.
  - split; eauto.
  - destruct s as [|b s].
    + split; [discriminate|]. intros (b & H); discriminate.
    + rewrite andb_true_iff, N.eqb_eq, IH. split.
      * intros (-> & r & ->). now exists r.
      * intros (r & [= -> ->]). split; eauto.
Qed.

Lemma find_sub_some needle s k :
  find_sub needle s = Some k ->
  exists a b, s = a ++ needle ++ b /\ length a = k
    /\ (forall a' b', s = a' ++ needle ++ b' -> k <= length a').
Proof.
  revert k; induction s as [|c t IH]; intros k; cbn [find_sub].
  - destruct (is_prefix needle []) eqn:E; [|discriminate]. intros [= <-].
    apply is_prefix_spec in E as (b & Hb). exists [], b. repeat split; auto. intros; lia.
  - destruct (is_prefix needle (c :: t)) eqn:E.
    + intros [= <-]. apply is_prefix_spec in E as (b & Hb). exists [], b. repeat split; auto. intros; lia.
    + destruct (find_sub needle t) as [j|] eqn:F; [|discriminate]. intros [= <-].
      destruct (IH _ eq_refl) as (a & b & -> & Hl & Hmin).
      exists (c :: a), b. cbn. repeat split; auto.
      intros [|x a'] b' He; cbn in He.
      * exfalso. assert (is_prefix needle (c :: a ++ needle ++ b) = true); [|congruence].
        apply is_prefix_spec. eauto.
      * injection He as -> He. cbn. apply Hmin in He. lia.
Qed.

Lemma find_sub_none needle s : find_sub needle s = None -> ~ occurs needle s.
Proof.
  intros H (a & b & ->). revert H. induction a as [|c a IH]; cbn.
  - assert (is_prefix needle (needle ++ b) = true) as E by (apply is_prefix_spec; eauto).
    destruct needle; cbn in *; [destruct b; discriminate|].
    destruct (N.eqb n n && is_prefix needle (needle ++ b)); discriminate.
  - destruct (is_prefix needle (c :: a ++ needle ++ b)); [discriminate|].
    destruct (find_sub needle (a ++ needle ++ b)); [discriminate|]. intros _; now apply IH.
Qed.

(** * The cutting specification *)
Lemma app_len_inv {A} (a b c d : list A) : a ++ b = c ++ d -> length a = length c -> a = c /\ b = d.
Proof.
  revert c; induction a as [|x a IH]; intros [|y c] H Hl; cbn in *; try discriminate; auto.
  injection H as -> H. destruct (IH c H) as [-> ->]; auto.
Qed.

Lemma cuts_intercalate sep s ps : cuts sep s ps -> intercalate sep ps = s /\ ps <> [].
Proof.
  induction 1 as [s Hn|a b ps Hmin Hc [IH Hne]]; cbn; [split; [auto|discriminate]|].
  split; [|discriminate]. destruct ps; [congruence|]. now rewrite IH.
Qed.

Lemma cuts_pieces sep s ps : sep <> [] -> cuts sep s ps -> Forall (fun p => ~ occurs sep p) ps.
Proof.
  intros Hs. induction 1 as [s Hn|a b ps Hmin Hc IH]; constructor; auto.
  intros (x & y & ->). specialize (Hmin x (y ++ sep ++ b)).
  rewrite !app_length in Hmin. destruct sep; [congruence|]. cbn [length] in Hmin.
  rewrite <- !app_assoc in Hmin. specialize (Hmin eq_refl). lia.
Qed.

Lemma cuts_unique sep s ps ps' : sep <> [] -> cuts sep s ps -> cuts sep s ps' -> ps = ps'.
Proof.
  intros Hs H. revert ps'. induction H as [s Hn|a b ps Hmin Hc IH]; intros ps' H'.
  - inversion H' as [? ?|a b ps2 Hmin Hc]; subst; auto. destruct Hn. now exists a, b.
  - inversion H' as [s' Hn E|a2 b2 ps2 Hmin2 Hc2 E]; subst.
    + destruct Hn. now exists a, b.
    + assert (length a = length a2).
      { apply Nat.le_antisymm.
        - eapply Hmin. symmetry. exact E.
        - eapply Hmin2. exact E. }
      apply app_len_inv in E as [-> E]; auto.
      apply app_inv_head in E as ->. f_equal. now apply IH.
Qed.

(** Splitting a join of separator-free pieces at a single character. *)
Lemma cuts_of_intercalate c ps :
  ps <> [] -> Forall (fun p => ~ In c p) ps -> cuts [c] (intercalate [c] ps) ps.
Proof.
  induction ps as [|p ps IH]; intros Hne Hf; [congruence|].
  inversion Hf as [|? ? Hp Hps]; subst.
  destruct ps as [|q ps].
  - constructor. intros (a & b & ->). apply Hp. rewrite !in_app_iff. cbn. auto.
  - change (intercalate [c] (p :: q :: ps)) with (p ++ [c] ++ intercalate [c] (q :: ps)).
    constructor; [|apply IH; auto; discriminate].
    intros a' b' E. destruct (Nat.le_gt_cases (length p) (length a')) as [|Hlt]; auto.
    exfalso. apply Hp.
    assert (Hn : nth_error (p ++ [c] ++ intercalate [c] (q :: ps)) (length a') = Some c).
    { rewrite E. rewrite nth_error_app2 by lia. now rewrite Nat.sub_diag. }
    rewrite nth_error_app1 in Hn by lia. eapply nth_error_In; eauto.
Qed.

(** * Split *)
Lemma skipn_app_len {A} (a b : list A) : skipn (length a) (a ++ b) = b.
Proof. rewrite skipn_app, skipn_all, Nat.sub_diag. reflexivity. Qed.
Lemma firstn_app_len {A} (a b : list A) : firstn (length a) (a ++ b) = a.
Proof. rewrite firstn_app, firstn_all, Nat.sub_diag. cbn. apply app_nil_r. Qed.

Definition split_tail (str : list N) (x : nat * option nat * list (list N)) : outcome (list (list N)) :=
  let '(cursor, mtch, out) := x in
  do c <- slot_get str cursor;
  if negb (N.eqb c 0) || (match mtch with Some _ => true | None => false end)
  then do last <- read_cstr (skipn cursor str); Ok (out ++ [last])
  else Ok out.

Lemma nth_skipn_0 {A} (l : list A) k : nth_error l k = nth_error (skipn k l) 0.
Proof. revert l; induction k; intros [|h t]; cbn; auto. now rewrite IHk. Qed.

Lemma split_loop_ok str sep :
  sep <> [] -> ~ In 0%N sep ->
  forall fuel cursor mtch out r,
    cstring (skipn cursor str) r -> length r < fuel ->
    exists x ps, split_loop fuel str sep cursor mtch out = Ok x
      /\ split_tail str x = Ok (out ++ ps)
      /\ ((mtch <> None \/ r <> []) -> cuts sep r ps)
      /\ ((mtch = None /\ r = []) -> ps = []).
Proof.
  intros Hsep Hz. induction fuel as [|f IH]; intros cursor mtch out r Hr Hf; [lia|].
  cbn [split_loop].
  destruct Hr as (rest & Hsk & Hn).
  assert (Hnil : ~ occurs sep []).
  { intros (a & b & E). symmetry in E. apply app_eq_nil in E as [-> E].
    apply app_eq_nil in E as [-> _]. congruence. }
  destruct r as [|c r].
  - assert (Hg : slot_get str cursor = Ok 0%N).
    { apply slot_get_ok. rewrite nth_skipn_0, Hsk. reflexivity. }
    rewrite Hg. cbn [bind]. cbn [N.eqb].
    destruct mtch as [m|].
    + exists (cursor, Some m, out), [[]]. split; [auto|]. split; [|split].
      * unfold split_tail. rewrite Hg. cbn [bind N.eqb negb orb]. rewrite Hsk. reflexivity.
      * intros _. now constructor.
      * intros [? _]; discriminate.
    + exists (cursor, None, out), []. split; [auto|]. split; [|split].
      * unfold split_tail. rewrite Hg. cbn [bind N.eqb negb orb]. now rewrite app_nil_r.
      * intros [?|?]; congruence.
      * auto.
  - assert (Hc : c <> 0%N) by (intros ->; apply Hn; now left).
    assert (Hg : slot_get str cursor = Ok c).
    { apply slot_get_ok. rewrite nth_skipn_0, Hsk. reflexivity. }
    rewrite Hg. cbn [bind]. destruct (N.eqb_spec c 0); [congruence|].
    assert (Hcs : cstring (skipn cursor str) (c :: r)) by (exists rest; auto).
    unfold strstr. rewrite (read_cstring _ _ Hcs). cbn [bind].
    destruct (find_sub sep (c :: r)) as [k|] eqn:F.
    + apply find_sub_some in F as (a & b & E & Hl & Hmin).
      rewrite E in Hsk, Hn.
      assert (Hsk' : skipn (cursor + k + length sep) str = b ++ 0%N :: rest).
      { replace (cursor + k + length sep) with ((k + length sep) + cursor) by lia.
        rewrite <- skipn_add, Hsk.
        replace ((a ++ sep ++ b) ++ 0%N :: rest) with ((a ++ sep) ++ b ++ 0%N :: rest)
          by (rewrite <- !app_assoc; reflexivity).
        replace (k + length sep) with (length (a ++ sep)) by (rewrite app_length; lia).
        apply skipn_app_len. }
      assert (Hfb : length b < f).
      { rewrite E in Hf. rewrite !app_length in Hf. destruct sep; [congruence|]. cbn [length] in Hf. lia. }
      destruct (IH (cursor + k + length sep) (Some (cursor + k))
                  (out ++ [firstn (cursor + k - cursor) (skipn cursor str)]) b) as (x & ps & H1 & H2 & H3 & _).
      { exists rest. split; auto. intros Hi. apply Hn. rewrite !in_app_iff. auto. }
      { exact Hfb. }
      exists x, (a :: ps). split; [exact H1|]. split; [|split].
      * rewrite H2, <- app_assoc. cbn [app]. f_equal. f_equal. f_equal.
        replace (cursor + k - cursor) with k by lia. rewrite Hsk, <- Hl, <- app_assoc.
        apply firstn_app_len.
      * intros _. rewrite E. constructor.
        -- intros a' b' E'. rewrite Hl. eapply Hmin. rewrite E. exact E'.
        -- apply H3. left; discriminate.
      * intros [_ ?]; discriminate.
    + apply find_sub_none in F.
      exists (cursor, None, out), [c :: r]. split; [auto|]. split; [|split].
      * unfold split_tail. rewrite Hg. cbn [bind]. destruct (N.eqb_spec c 0); [congruence|].
        cbn [negb orb]. rewrite (read_cstring _ _ Hcs). reflexivity.
      * intros _. now constructor.
      * intros [_ ?]; discriminate.
Qed.

Lemma split_ok debug str s sepb sep :
  cstring str s -> cstring sepb sep -> sep <> [] ->
  exists ps, split debug str sepb = Ok ps /\ splits sep s ps.
Proof.
  intros Hs Hsep Hne. unfold split. rewrite (read_cstring _ _ Hsep). cbn [bind].
  replace (assert_ debug (0 <? length sep)) with (@Ok unit tt).
  2:{ unfold assert_. destruct sep; [congruence|]. cbn. now rewrite andb_false_r. }
  cbn [bind]. pose proof (cstring_len _ _ Hs) as Hl.
  destruct (split_loop_ok str sep Hne) with (fuel := S (length str)) (cursor := 0) (mtch := @None nat)
    (out := @nil (list N)) (r := s) as (x & ps & H1 & H2 & H3 & H4); auto; try lia.
  { destruct Hsep as (? & _ & H); auto. }
  rewrite H1. cbn [bind]. exists ps. destruct x as [[cursor m] out]. cbn [split_tail] in H2.
  split; [exact H2|].
  destruct s as [|c s].
  - left. split; auto.
  - right. split; [discriminate|]. apply H3. right; discriminate.
Qed.

(** An empty separator: the debug build asserts, the release build never returns. *)
Lemma split_loop_empty_sep str c t rest : str = c :: t ++ rest -> ~ In 0%N (c :: t) -> hd_error rest = Some 0%N ->
  forall fuel mtch out, split_loop fuel str [] 0 mtch out = Diverge.
Proof.
  intros -> Hn Hr.
  destruct rest as [|z rest]; [discriminate|]. injection Hr as ->.
  assert (Hcs : cstring (c :: t ++ 0%N :: rest) (c :: t)) by (exists rest; auto).
  induction fuel as [|f IH]; intros mtch out; auto.
  cbn [split_loop]. unfold slot_get at 1. cbn [nth_error bind].
  destruct (N.eqb_spec c 0) as [->|Hc]; [destruct Hn; now left|].
  unfold strstr. cbn [skipn]. rewrite (read_cstring _ _ Hcs). cbn [bind find_sub is_prefix].
  cbn [Nat.add length]. apply IH.
Qed.

(** * Join *)
Lemma blit_mid done rest bytes :
  length bytes <= length rest ->
  blit (done ++ rest) (length done) bytes = Ok ((done ++ bytes) ++ skipn (length bytes) rest).
Proof.
  intros H. rewrite blit_ok by (rewrite app_length; lia).
  rewrite firstn_app_len. rewrite <- app_assoc. f_equal. f_equal. f_equal.
  rewrite Nat.add_comm, <- skipn_add, skipn_app_len. reflexivity.
Qed.
Lemma blit_mid_oob done rest bytes :
  length rest < length bytes -> blit (done ++ rest) (length done) bytes = Fault OutOfBounds.
Proof.
  intros H. unfold blit. rewrite app_length.
  destruct (Nat.leb_spec (length done + length bytes) (length done + length rest)); [lia|auto].
Qed.

Lemma join_loop_ok sep : forall ps done rest,
  length (intercalate sep ps) <= length rest ->
  join_loop ps sep (done ++ rest) (length done)
  = Ok ((done ++ intercalate sep ps) ++ skipn (length (intercalate sep ps)) rest,
        length done + length (intercalate sep ps)).
Proof.
  induction ps as [|p ps IH]; intros done rest H; cbn [join_loop].
  - cbn. now rewrite app_nil_r, Nat.add_0_r.
  - destruct ps as [|q ps].
    + cbn [intercalate] in *. rewrite blit_mid by lia. reflexivity.
    + change (intercalate sep (p :: q :: ps)) with (p ++ sep ++ intercalate sep (q :: ps)) in *.
      set (R := intercalate sep (q :: ps)) in *.
      rewrite !app_length in H.
      rewrite blit_mid by lia. cbn [bind].
      replace (length done + length p) with (length (done ++ p)) by (rewrite app_length; lia).
      rewrite blit_mid by (rewrite skipn_length; lia). cbn [bind].
      replace (length (done ++ p) + length sep) with (length ((done ++ p) ++ sep))
        by (rewrite !app_length; lia).
      rewrite IH by (fold R; rewrite !skipn_length; clearbody R; lia). fold R. clearbody R.
      rewrite !skipn_add, <- !app_assoc, !app_length.
      f_equal. f_equal; [|lia]. do 5 f_equal. lia.
Qed.

Lemma join_loop_oob sep : forall ps done rest,
  length rest < length (intercalate sep ps) ->
  join_loop ps sep (done ++ rest) (length done) = Fault OutOfBounds.
Proof.
  induction ps as [|p ps IH]; intros done rest H; cbn [join_loop].
  - cbn in H. lia.
  - destruct ps as [|q ps].
    + cbn [intercalate] in *. rewrite blit_mid_oob by lia. reflexivity.
    + change (intercalate sep (p :: q :: ps)) with (p ++ sep ++ intercalate sep (q :: ps)) in *.
      rewrite !app_length in H.
      destruct (Nat.le_gt_cases (length p) (length rest)) as [H1|H1].
      2:{ rewrite blit_mid_oob by lia. reflexivity. }
      rewrite blit_mid by lia. cbn [bind].
      replace (length done + length p) with (length (done ++ p)) by (rewrite app_length; lia).
      destruct (Nat.le_gt_cases (length sep) (length (skipn (length p) rest))) as [H2|H2].
      2:{ rewrite blit_mid_oob by lia. reflexivity. }
      rewrite blit_mid by lia. cbn [bind].
      replace (length (done ++ p) + length sep) with (length ((done ++ p) ++ sep))
        by (rewrite !app_length; lia).
      apply IH. rewrite !skipn_length. rewrite skipn_length in H2. lia.
Qed.

Fixpoint total (ps : list (list N)) : nat := match ps with [] => 0 | p :: t => length p + total t end.

Lemma intercalate_length sep p ps :
  length (intercalate sep (p :: ps)) = total (p :: ps) + length sep * length ps.
Proof.
  revert p; induction ps as [|q ps IH]; intros p.
  - cbn. lia.
  - change (intercalate sep (p :: q :: ps)) with (p ++ sep ++ intercalate sep (q :: ps)).
    rewrite !app_length, IH. cbn [total length]. lia.
Qed.

Lemma pow2_nz w : (2 ^ w <> 0)%N.
Proof. apply N.pow_nonzero. lia. Qed.

Lemma fold_len w ps : forall acc,
  (fold_left (fun a p => uadd w a (N.of_nat (length p))) ps acc mod 2 ^ w
   = (acc + N.of_nat (total ps)) mod 2 ^ w)%N.
Proof.
  induction ps as [|p ps IH]; intros acc; cbn [fold_left total].
  - now rewrite N.add_0_r.
  - rewrite IH. unfold uadd. pose proof (pow2_nz w) as Hp.
    rewrite N.add_mod_idemp_l by exact Hp. f_equal. rewrite Nat2N.inj_add. apply eq_sym, N.add_assoc.
Qed.

Lemma fold_len0 w ps :
  (fold_left (fun a p => uadd w a (N.of_nat (length p))) ps 0 = N.of_nat (total ps) mod 2 ^ w)%N.
Proof.
  pose proof (fold_len w ps 0) as H. rewrite N.add_0_l in H. rewrite <- H. symmetry. apply N.mod_small.
  pose proof (pow2_nz w) as Hp. clear H.
  destruct ps as [|p ps] using rev_ind.
  - cbn. now apply N.neq_0_lt_0.
  - rewrite fold_left_app. cbn [fold_left]. unfold uadd at 1. apply N.mod_lt. exact Hp.
Qed.

Lemma join_len_ok w sep ps :
  join_len w ps (length sep) = (N.of_nat (length (intercalate sep ps)) mod 2 ^ w)%N.
Proof.
  unfold join_len. rewrite fold_len0. destruct ps as [|p ps].
  - reflexivity.
  - rewrite intercalate_length. unfold uadd, umul. pose proof (pow2_nz w) as Hp.
    rewrite <- N.add_mod by exact Hp. f_equal.
    rewrite Nat2N.inj_add, Nat2N.inj_mul. cbn [length].
    replace (S (length ps) - 1) with (length ps) by lia. reflexivity.
Qed.

Lemma join_ok w debug ps sepb sep :
  cstring sepb sep -> (N.of_nat (length (intercalate sep ps)) < 2 ^ w)%N ->
  join w debug ps sepb = Ok (intercalate sep ps).
Proof.
  intros Hs Hw. unfold join. rewrite (read_cstring _ _ Hs). cbn [bind].
  rewrite join_len_ok, N.mod_small by exact Hw. rewrite Nat2N.id.
  pose proof (join_loop_ok sep ps [] (repeat 0%N (length (intercalate sep ps)))) as H.
  cbn [length app Nat.add] in H. rewrite H by (rewrite repeat_length; lia). cbn [bind].
  rewrite Nat.eqb_refl. unfold assert_. cbn [negb]. rewrite andb_false_r. cbn [bind].
  rewrite skipn_all2 by (rewrite repeat_length; lia). now rewrite app_nil_r.
Qed.

Lemma join_overflow w debug ps sepb sep :
  cstring sepb sep -> (2 ^ w <= N.of_nat (length (intercalate sep ps)))%N ->
  join w debug ps sepb = Fault OutOfBounds.
Proof.
  intros Hs Hw. unfold join. rewrite (read_cstring _ _ Hs). cbn [bind].
  rewrite join_len_ok.
  pose proof (join_loop_oob sep ps [] (repeat 0%N (N.to_nat (N.of_nat (length (intercalate sep ps)) mod 2 ^ w)))) as H.
  cbn [length app Nat.add] in H. rewrite H; [reflexivity|]. rewrite repeat_length.
  pose proof (N.mod_lt (N.of_nat (length (intercalate sep ps))) (2 ^ w) (pow2_nz w)) as Hlt.
  generalize dependent (N.of_nat (length (intercalate sep ps)) mod 2 ^ w)%N.
  generalize dependent (2 ^ w)%N. intros. lia.
Qed.

(** * Case conversion *)
Lemma char_ok char_signed c :
  is_byte c -> char_signed = false \/ (c < 128)%N \/ c = 255%N ->
  in_ctype_domain (char_to_int char_signed c) = true.
Proof.
  unfold is_byte, char_to_int, in_ctype_domain. intros Hb H.
  destruct char_signed; cbn [andb].
  - destruct (N.leb_spec 128 c); lia.
  - lia.
Qed.
Ltac case_leb :=
  repeat match goal with
  | |- context [(?a <=? ?b)%N] => destruct (N.leb_spec a b)
  | |- context [(?a <=? ?b)%Z] => destruct (Z.leb_spec a b)
  end; cbn [andb].
Lemma toupper_ok char_signed c :
  is_byte c -> char_signed = false \/ (c < 128)%N \/ c = 255%N ->
  exists x, toupper (char_to_int char_signed c) = Ok x /\ int_to_char x = ascii_upper c.
Proof.
  intros Hb H. unfold toupper. rewrite (char_ok _ _ Hb H). eexists; split; [reflexivity|].
  unfold is_byte, char_to_int, int_to_char, ascii_upper in *.
  destruct char_signed; cbn [andb].
  - destruct (N.leb_spec 128 c).
    + assert (c = 255%N) as -> by lia. reflexivity.
    + case_leb; rewrite ?Z.mod_small by lia; lia.
  - case_leb; rewrite ?Z.mod_small by lia; lia.
Qed.
Lemma tolower_ok char_signed c :
  is_byte c -> char_signed = false \/ (c < 128)%N \/ c = 255%N ->
  exists x, tolower (char_to_int char_signed c) = Ok x /\ int_to_char x = ascii_lower c.
Proof.
  intros Hb H. unfold tolower. rewrite (char_ok _ _ Hb H). eexists; split; [reflexivity|].
  unfold is_byte, char_to_int, int_to_char, ascii_lower in *.
  destruct char_signed; cbn [andb].
  - destruct (N.leb_spec 128 c).
    + assert (c = 255%N) as -> by lia. reflexivity.
    + case_leb; rewrite ?Z.mod_small by lia; lia.
  - case_leb; rewrite ?Z.mod_small by lia; lia.
Qed.

Lemma map_chars_ok char_signed f g (P : N -> Prop) s :
  (forall c, P c -> exists x, f (char_to_int char_signed c) = Ok x /\ int_to_char x = g c) ->
  Forall P s -> map_chars char_signed f s = Ok (map g s).
Proof.
  intros Hf. induction 1 as [|c s Hc Hs IH]; cbn; auto.
  destruct (Hf c Hc) as (x & -> & Hx). cbn [bind]. rewrite IH. cbn [bind]. now rewrite Hx.
Qed.

Lemma map_chars_bad f s1 c s2 :
  Forall (fun b => (b < 128)%N) s1 -> (128 <= c < 255)%N ->
  (f = toupper \/ f = tolower) ->
  map_chars true f (s1 ++ c :: s2) = Fault BadArg.
Proof.
  intros H1 Hc Hf. induction H1 as [|b s1 Hb _ IH]; cbn [map_chars app].
  - assert (f (char_to_int true c) = Fault BadArg) as ->; [|reflexivity].
    assert (E : in_ctype_domain (char_to_int true c) = false).
    { unfold in_ctype_domain, char_to_int. cbn [andb]. destruct (N.leb_spec 128 c); lia. }
    destruct Hf as [-> | ->]; [unfold toupper|unfold tolower]; now rewrite E.
  - rewrite IH.
    destruct Hf as [-> | ->].
    + destruct (toupper_ok true b) as (x & -> & _); [unfold is_byte; lia|auto|reflexivity].
    + destruct (tolower_ok true b) as (x & -> & _); [unfold is_byte; lia|auto|reflexivity].
Qed.

(** * StartsWith, EndsWith *)
Lemma strncmp_prefix : forall t s ra rb, ~ In 0%N t ->
  strncmp_eq (length t) (s ++ 0%N :: ra) (t ++ 0%N :: rb) = Ok (is_prefix t s).
Proof.
  induction t as [|y t IH]; intros s ra rb Hn; cbn [length strncmp_eq]; [reflexivity|].
  cbn [app]. destruct s as [|x s]; cbn [app is_prefix].
  - destruct (N.eqb_spec 0 y) as [<-|Hy]; [destruct Hn; now left|]. reflexivity.
  - rewrite N.eqb_sym. destruct (N.eqb_spec y x) as [->|Hy]; cbn [negb andb]; [|reflexivity].
    destruct (N.eqb_spec x 0) as [->|Hx]; [destruct Hn; now left|].
    apply IH. intros Hi; apply Hn; now right.
Qed.

Lemma starts_with_ok a s ra b t :
  a = s ++ 0%N :: ra -> cstring b t -> starts_with a b = Ok (is_prefix t s).
Proof.
  intros -> Hb. unfold starts_with, strlen. rewrite (read_cstring _ _ Hb). cbn [bind].
  destruct Hb as (rb & -> & Hn). now apply strncmp_prefix.
Qed.

Lemma list_eqb_eq a b : list_eqb a b = true <-> a = b.
Proof. unfold list_eqb. destruct (list_eq_dec N.eq_dec a b); split; congruence. Qed.

Lemma ends_with_ok a b : exists r, ends_with a b = Ok r /\ (r = true <-> exists x, a = x ++ b).
Proof.
  unfold ends_with. destruct (Nat.leb_spec (length b) (length a)) as [Hle|Hgt].
  - destruct (Nat.leb_spec (length a - length b) (length a)); [|lia].
    eexists; split; [reflexivity|]. rewrite list_eqb_eq.
    rewrite firstn_all2 by (rewrite skipn_length; lia). split.
    + intros E. exists (firstn (length a - length b) a). transitivity (firstn (length a - length b) a ++ skipn (length a - length b) a); [now rewrite firstn_skipn|]. now rewrite E.
    + intros (x & ->). rewrite app_length. replace (length x + length b - length b) with (length x) by lia.
      apply skipn_app_len.
  - eexists; split; [reflexivity|]. split; [discriminate|].
    intros (x & ->). rewrite app_length in Hgt. lia.
Qed.
