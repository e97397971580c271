(** Property theorems C43-C54: am-string.h and os/am-path.h. *)
From Verif Require Import Base StrModel StrSpec StrProofs StrSplit.

(** Two sample strings: "abc" and "x,y,,z". *)
Definition s_abc : list N := [97; 98; 99]%N.
Definition s_list : list N := [120; 44; 121; 44; 44; 122]%N.

(** * C43 SafeStrcpy *)
Theorem C43_safe_strcpy : forall w dest max src s,
  cstring src s -> 0 < max <= length dest ->
  let k := Nat.min (length s) (max - 1) in
  safe_strcpy w (Some dest) max src = Ok (Some (firstn k s ++ [0%N] ++ skipn (k + 1) dest), k).
Proof.
  intros w dest max src s Hs Hm k. rewrite (safe_strcpy_ok w dest max src s Hs Hm). fold k.
  now rewrite Nat.add_1_r.
Qed.
Print Assumptions C43_safe_strcpy.

Theorem C43_safe_strcpy_null : forall w dest max src,
  safe_strcpy w None max src = Ok (None, 0) /\ safe_strcpy w (Some dest) 0 src = Ok (Some dest, 0).
Proof. intros. split; reflexivity. Qed.
Print Assumptions C43_safe_strcpy_null.

Example C43_nonvacuous :
  cstring (s_abc ++ [0; 7]%N) s_abc
  /\ safe_strcpy 64 (Some [1;2;3;4]%N) 3 (s_abc ++ [0; 7]%N) = Ok (Some [97;98;0;4]%N, 2).
Proof. split; [|reflexivity]. exists [7%N]. split; [reflexivity|]. cbn. intuition discriminate. Qed.

(** * C44 SafeStrcat *)
Theorem C44_safe_strcat : forall dest d max src s,
  cstring src s -> cstring dest d -> max <= length dest ->
  let k := Nat.min (length s) (max - 1 - length d) in
  safe_strcat dest max src = Ok (d ++ firstn k s ++ [0%N] ++ skipn (length d + k + 1) dest, length d + k).
Proof.
  intros dest d max src s Hs Hd Hm k. rewrite (safe_strcat_ok dest d max src s Hs Hd Hm). fold k.
  now replace (length d + k + 1) with (S (length d + k)) by lia.
Qed.
Print Assumptions C44_safe_strcat.

(** If dest already fills maxlength, nothing changes. *)
Theorem C44_safe_strcat_full : forall dest d max src s,
  cstring src s -> cstring dest d -> max <= length dest -> max <= length d + 1 ->
  safe_strcat dest max src = Ok (dest, length d).
Proof.
  intros dest d max src s Hs Hd Hm Hf. rewrite (safe_strcat_ok dest d max src s Hs Hd Hm).
  replace (Nat.min (length s) (max - 1 - length d)) with 0 by lia. cbn [firstn app].
  rewrite Nat.add_0_r. f_equal. f_equal. destruct Hd as (r & -> & _). f_equal. f_equal.
  replace (S (length d)) with (length (d ++ [0%N])) by (rewrite app_length; cbn; lia).
  replace (d ++ 0%N :: r) with ((d ++ [0%N]) ++ r) by (rewrite <- app_assoc; reflexivity).
  apply skipn_app_len.
Qed.
Print Assumptions C44_safe_strcat_full.

Example C44_nonvacuous :
  safe_strcat [120;0;9;9;9]%N 4 (s_abc ++ [0]%N) = Ok ([120;97;98;0;9]%N, 3)
  /\ safe_strcat [120;121;0;9]%N 2 (s_abc ++ [0]%N) = Ok ([120;121;0;9]%N, 2).
Proof. split; reflexivity. Qed.

(** * C45 SafeStrcpyN *)
(** Full statement (false): for a C string [s] the first min(n, |s|, max-1) characters and a NUL are written.
    The code never looks for the terminator: with n beyond the string it copies the terminator and whatever
    follows, or reads outside the source. *)
Theorem C45_safe_strcpyn_refuted : forall w dest max s n,
  ~ In 0%N s -> 0 < max <= length dest -> length s + 1 < Nat.min n (max - 1) ->
  safe_strcpyn w (Some dest) max (s ++ [0%N]) n = Fault OutOfBounds.
Proof.
  intros. apply safe_strcpyn_oob; [auto|]. rewrite app_length. cbn. lia.
Qed.
Print Assumptions C45_safe_strcpyn_refuted.

(** n = 0 leaves dest unterminated. *)
Theorem C45_safe_strcpyn_zero_refuted : forall w dest max src,
  safe_strcpyn w (Some dest) max src 0 = Ok (Some dest, 0).
Proof. intros. unfold safe_strcpyn. now rewrite orb_true_r. Qed.
Print Assumptions C45_safe_strcpyn_zero_refuted.
(** A null destination, or one without room, is left alone, and nothing of src is read. *)
Theorem C45_safe_strcpyn_no_room : forall w dest max src n, dest = None \/ max = 0 ->
  safe_strcpyn w dest max src n = Ok (dest, 0).
Proof. intros w [d|] max src n [E|E]; try discriminate; try reflexivity. subst max. reflexivity. Qed.
Print Assumptions C45_safe_strcpyn_no_room.

(** What holds: for 0 < n <= strlen(src) the function meets its description. *)
Theorem C45_safe_strcpyn_partial : forall w dest max src s n,
  cstring src s -> 0 < max <= length dest -> 0 < n <= length s ->
  let k := Nat.min n (max - 1) in
  safe_strcpyn w (Some dest) max src n = Ok (Some (firstn k s ++ [0%N] ++ skipn (k + 1) dest), k).
Proof.
  intros w dest max src s n Hs Hm Hn k.
  pose proof (cstring_len _ _ Hs).
  rewrite safe_strcpyn_raw by lia. fold k. rewrite Nat.add_1_r.
  destruct Hs as (r & -> & _). rewrite firstn_app. replace (k - length s) with 0 by (unfold k; lia).
  cbn [firstn]. now rewrite app_nil_r.
Qed.
Print Assumptions C45_safe_strcpyn_partial.

(** Exact behaviour on every source buffer: a raw copy of min(n, max-1) bytes. *)
Theorem C45_safe_strcpyn_exact_partial : forall w dest max src n,
  0 < max <= length dest -> 0 < n -> Nat.min n (max - 1) <= length src ->
  let k := Nat.min n (max - 1) in
  safe_strcpyn w (Some dest) max src n = Ok (Some (firstn k src ++ [0%N] ++ skipn (k + 1) dest), k).
Proof.
  intros w dest max src n Hm Hn Hk k. rewrite safe_strcpyn_raw by lia. fold k. now rewrite Nat.add_1_r.
Qed.
Print Assumptions C45_safe_strcpyn_exact_partial.

Example C45_nonvacuous :
  safe_strcpyn 64 (Some [1;1;1;1;1]%N) 5 (s_abc ++ [0]%N) 2 = Ok (Some [97;98;0;1;1]%N, 2)
  /\ safe_strcpyn 64 (Some (repeat 1%N 9)) 9 (s_abc ++ [0]%N) 8 = Fault OutOfBounds.
Proof. split; reflexivity. Qed.

(** * C46 SafeSprintf *)
Theorem C46_safe_sprintf_text : forall w msvc buf max t,
  (32 <= w)%N -> 0 < max <= length buf -> (N.of_nat max <= 2 ^ (w - 1))%N ->
  formatted_wf (Text t) ->
  let k := Nat.min (length t) (max - 1) in
  safe_sprintf w msvc buf max (Text t) = Ok (firstn k t ++ [0%N] ++ skipn (k + 1) buf, k).
Proof.
  intros w msvc buf max t Hw Hm Hmax Ht k.
  rewrite (safe_sprintf_text w msvc buf max t Hw Hm Hmax Ht). fold k. now rewrite Nat.add_1_r.
Qed.
Print Assumptions C46_safe_sprintf_text.

(** Whatever vsnprintf does: in bounds, terminated inside maxlength, nothing beyond maxlength written. *)
Theorem C46_safe_sprintf_bounded : forall w msvc buf max r,
  (32 <= w)%N -> max <= length buf -> (N.of_nat max <= 2 ^ (w - 1))%N -> formatted_wf r ->
  exists buf' n, safe_sprintf w msvc buf max r = Ok (buf', n)
    /\ length buf' = length buf
    /\ skipn max buf' = skipn max buf
    /\ (0 < max -> n < max /\ nth_error buf' n = Some 0%N)
    /\ (max = 0 -> n = 0 /\ buf' = buf).
Proof.
  intros w msvc buf max r Hw Hm Hmax Hr.
  destruct (Nat.eq_dec max 0) as [->|Hnz].
  - exists buf, 0. cbn. repeat split; auto; lia.
  - destruct r as [t|g ret].
    + set (k := Nat.min (length t) (max - 1)).
      exists (firstn k t ++ 0%N :: skipn (S k) buf), k.
      pose proof (safe_sprintf_text w msvc buf max t Hw ltac:(lia) Hmax Hr) as H. fold k in H.
      assert (Hl : length (firstn k t) = k) by (rewrite firstn_length; unfold k; lia).
      split; [exact H|]. split; [|split; [|split; [|lia]]].
      * rewrite app_length, Hl. cbn [length]. rewrite skipn_length. unfold k in *; lia.
      * rewrite skipn_app, Hl. rewrite skipn_all2 by (rewrite Hl; unfold k; lia). cbn [app].
        replace (max - k) with (S (max - k - 1)) by (unfold k; lia). rewrite skipn_cons.
        rewrite skipn_add. f_equal. unfold k; lia.
      * intros _. split; [unfold k; lia|]. rewrite nth_error_app2 by lia. rewrite Hl, Nat.sub_diag. reflexivity.
    + destruct (safe_sprintf_error w msvc buf max g ret Hw ltac:(lia) Hmax Hr) as (b & H1 & H2 & H3 & H4).
      exists b, (max - 1). split; [exact H1|]. split; [auto|]. split; [auto|]. split; [|lia].
      intros _. split; [lia|auto].
Qed.
Print Assumptions C46_safe_sprintf_bounded.

Example C46_nonvacuous :
  safe_sprintf 64 false [1;1;1;1]%N 3 (Text s_abc) = Ok ([97;98;0;1]%N, 2)
  /\ safe_sprintf 64 true [1;1;1;1]%N 3 (Text s_abc) = Ok ([97;98;0;1]%N, 2)
  /\ safe_sprintf 32 true [1;1;1;1]%N 2 (Text s_abc) = Ok ([97;0;1;1]%N, 1)
  /\ formatted_wf (FmtError [5]%N (-1)).
Proof. repeat split; try reflexivity; unfold int_max; lia. Qed.

(** * C47 StringPrintf *)
(** Full statement (false at exactly one length): a text of INT_MAX characters overflows [len + 1]. *)
Theorem C47_string_printf_refuted : forall debug msvc t,
  Z.of_nat (length t) = int_max ->
  formatted_wf (Text t) /\ string_printf debug msvc (Text t) (Text t) = Fault SignedOverflow.
Proof.
  intros debug msvc t H. split; [cbn; lia|]. unfold string_printf.
  now rewrite (sprintf_impl_overflow debug msvc t _ H).
Qed.
Print Assumptions C47_string_printf_refuted.

Theorem C47_string_printf_partial : forall debug msvc t,
  (Z.of_nat (length t) < int_max)%Z ->
  string_printf debug msvc (Text t) (Text t) = Ok t
  /\ sprintf debug msvc (Text t) (Text t) = Ok (Some (t ++ [0%N])).
Proof.
  intros debug msvc t H. unfold string_printf, sprintf.
  rewrite (sprintf_impl_text debug msvc t H). cbn [bind].
  destruct (Nat.leb_spec (length t) (length (t ++ [0%N]))) as [_|E].
  - split; [|reflexivity]. now rewrite firstn_app_len.
  - rewrite app_length in E. lia.
Qed.
Print Assumptions C47_string_printf_partial.

(** A formatting error in either pass yields "" / null. *)
Theorem C47_string_printf_error_partial : forall debug msvc r1 r2 g ret,
  (ret < 0)%Z ->
  (r1 = FmtError g ret \/ (exists t, r1 = Text t /\ t <> [] /\ (Z.of_nat (length t) < int_max)%Z /\ r2 = FmtError g ret)) ->
  string_printf debug msvc r1 r2 = Ok [] /\ sprintf debug msvc r1 r2 = Ok None.
Proof.
  intros debug msvc r1 r2 g ret Hr H. unfold string_printf, sprintf.
  destruct H as [->|(t & -> & Ht & Hl & ->)].
  - rewrite (sprintf_impl_error1 debug msvc g ret r2 Hr). split; reflexivity.
  - rewrite (sprintf_impl_error2 debug msvc t g ret Ht Hl Hr). split; reflexivity.
Qed.
Print Assumptions C47_string_printf_error_partial.

Example C47_nonvacuous :
  string_printf true false (Text s_abc) (Text s_abc) = Ok s_abc
  /\ string_printf true true (Text s_abc) (FmtError [1]%N (-1)) = Ok [].
Proof. split; reflexivity. Qed.
Example C47_refuted_reachable : exists t : list N, Z.of_nat (length t) = int_max.
Proof. exists (repeat 65%N (Z.to_nat int_max)). rewrite repeat_length. unfold int_max. lia. Qed.

(** * C48 Join(Split(str, sep), sep) == str *)
Theorem C48_join_split : forall w debug strb str sepb sep,
  cstring strb str -> cstring sepb sep -> sep <> [] -> (N.of_nat (length str) < 2 ^ w)%N ->
  exists ps, split debug strb sepb = Ok ps /\ join w debug ps sepb = Ok str.
Proof.
  intros w debug strb str sepb sep Hs Hp Hne Hw.
  destruct (split_ok debug strb str sepb sep Hs Hp Hne) as (ps & H1 & H2).
  exists ps. split; [exact H1|].
  assert (E : intercalate sep ps = str).
  { destruct H2 as [[-> ->]|[_ H2]]; [reflexivity|]. now apply cuts_intercalate in H2. }
  rewrite <- E. apply join_ok; [exact Hp|]. now rewrite E.
Qed.
Print Assumptions C48_join_split.

(** The documented restriction on the separator is necessary: the empty separator asserts in debug builds and
    loops forever (appending empty pieces) in release builds, on every non-empty string. *)
Theorem C48_empty_separator : forall strb str sepb,
  cstring strb str -> cstring sepb [] -> str <> [] ->
  split true strb sepb = Fault AssertFail /\ split false strb sepb = Diverge
  /\ forall fuel, split_loop fuel strb [] 0 None [] = Diverge.
Proof.
  intros strb str sepb Hs Hp Hne. unfold split. rewrite (read_cstring _ _ Hp). cbn [bind].
  split; [reflexivity|]. destruct str as [|c t]; [congruence|].
  destruct Hs as (r & E & Hn).
  assert (H : forall fuel mtch out, split_loop fuel strb [] 0 mtch out = Diverge).
  { eapply split_loop_empty_sep with (rest := 0%N :: r); eauto. }
  split; [|intros; apply H]. cbn [bind assert_]. unfold assert_. cbn [andb bind]. now rewrite H.
Qed.
Print Assumptions C48_empty_separator.

Example C48_nonvacuous :
  split true (c_str s_list) (c_str [44%N]) = Ok [[120]; [121]; []; [122]]%N
  /\ join 64 true [[120]; [121]; []; [122]]%N (c_str [44%N]) = Ok s_list.
Proof. split; reflexivity. Qed.

(** * C49 the std::string overload *)
(** Full statement (false): strings with an embedded NUL are cut there. *)
Theorem C49_split_string_refuted : forall w debug a b sepb sep,
  ~ In 0%N a -> cstring sepb sep -> sep <> [] -> (N.of_nat (length a) < 2 ^ w)%N ->
  exists ps, split_string debug (a ++ 0%N :: b) sepb = Ok ps
    /\ join w debug ps sepb = Ok a /\ a <> a ++ 0%N :: b.
Proof.
  intros w debug a b sepb sep Ha Hp Hne Hw.
  assert (Hs : cstring (c_str (a ++ 0%N :: b)) a).
  { exists (b ++ [0%N]). split; auto. unfold c_str. now rewrite <- app_assoc. }
  destruct (C48_join_split w debug _ a sepb sep Hs Hp Hne Hw) as (ps & H1 & H2).
  exists ps. split; [exact H1|]. split; [exact H2|].
  intros E. apply (f_equal (@length N)) in E. rewrite app_length in E. cbn in E. lia.
Qed.
Print Assumptions C49_split_string_refuted.

Theorem C49_split_string_partial : forall w debug str sepb sep,
  ~ In 0%N str -> cstring sepb sep -> sep <> [] -> (N.of_nat (length str) < 2 ^ w)%N ->
  exists ps, split_string debug str sepb = Ok ps /\ join w debug ps sepb = Ok str.
Proof. intros. eapply C48_join_split; eauto. now apply cstring_c_str. Qed.
Print Assumptions C49_split_string_partial.

Example C49_nonvacuous :
  split_string true [97;0;44;98]%N (c_str [44%N]) = Ok [[97]]%N.
Proof. reflexivity. Qed.

(** * C50 leftmost greedy split *)
Theorem C50_split_cuts : forall debug strb str sepb sep,
  cstring strb str -> cstring sepb sep -> sep <> [] ->
  exists ps, split debug strb sepb = Ok ps /\ splits sep str ps.
Proof. intros. eapply split_ok; eauto. Qed.
Print Assumptions C50_split_cuts.

(** The specification determines the result, and no piece contains the separator. *)
Theorem C50_splits_unique : forall sep s ps ps',
  sep <> [] -> splits sep s ps -> splits sep s ps' -> ps = ps'.
Proof.
  intros sep s ps ps' Hs [[-> ->]|[H1 H2]] [[H3 H4]|[H3 H4]].
  - now rewrite H4.
  - congruence.
  - congruence.
  - exact (cuts_unique sep s ps ps' Hs H2 H4).
Qed.
Print Assumptions C50_splits_unique.

Theorem C50_pieces_without_sep : forall debug strb str sepb sep ps,
  cstring strb str -> cstring sepb sep -> sep <> [] ->
  split debug strb sepb = Ok ps -> Forall (fun p => ~ occurs sep p) ps /\ (ps = [] <-> str = []).
Proof.
  intros debug strb str sepb sep ps Hs Hp Hne H.
  destruct (split_ok debug strb str sepb sep Hs Hp Hne) as (ps' & H1 & H2).
  assert (ps' = ps) as -> by congruence.
  destruct H2 as [[-> ->]|[H2 H3]].
  - split; [constructor|]. split; auto.
  - split; [eapply cuts_pieces; eauto|]. split; [|congruence].
    intros ->. apply cuts_intercalate in H3 as [_ H3]. congruence.
Qed.
Print Assumptions C50_pieces_without_sep.

(** Split inverts Join at a single character. *)
Theorem C50_split_join : forall w debug c ps sepb,
  c <> 0%N -> cstring sepb [c] ->
  Forall (fun p => ~ In c p /\ ~ In 0%N p) ps -> ps <> [[]] ->
  (N.of_nat (length (intercalate [c] ps)) < 2 ^ w)%N ->
  exists str, join w debug ps sepb = Ok str /\ split debug (c_str str) sepb = Ok ps.
Proof.
  intros w debug c ps sepb Hc Hp Hf Hne Hw.
  exists (intercalate [c] ps). split; [now apply join_ok|].
  assert (Hz : ~ In 0%N (intercalate [c] ps)).
  { clear Hw Hne. induction ps as [|p ps IH]; cbn; auto.
    inversion Hf as [|? ? [_ H1] H2]; subst. destruct ps; auto.
    rewrite in_app_iff. cbn [app In]. intros [?|[?|?]]; try congruence. now apply IH. }
  destruct (split_ok debug _ _ sepb [c] (cstring_c_str _ Hz) Hp) as (ps' & H1 & H2); [discriminate|].
  rewrite H1. f_equal.
  eapply C50_splits_unique; [|exact H2|]; [discriminate|].
  destruct ps as [|p ps]; [left; auto|]. right. split.
  - destruct ps as [|q ps].
    + cbn. destruct p; congruence.
    + cbn. destruct p; discriminate.
  - apply cuts_of_intercalate; [discriminate|]. eapply Forall_impl; [|exact Hf]. cbn. tauto.
Qed.
Print Assumptions C50_split_join.

Example C50_nonvacuous :
  splits [44%N] s_list [[120]; [121]; []; [122]]%N
  /\ split false (c_str [44; 44; 44]%N) (c_str [44; 44]%N) = Ok [[]; [44]]%N.
Proof.
  split; [|reflexivity]. right. split; [discriminate|].
  apply (cuts_of_intercalate 44%N [[120]; [121]; []; [122]]%N); [discriminate|].
  repeat constructor; cbn; intuition discriminate.
Qed.

(** * C51 Join *)
Theorem C51_join_partial : forall w debug ps sepb sep,
  cstring sepb sep -> (N.of_nat (length (intercalate sep ps)) < 2 ^ w)%N ->
  join w debug ps sepb = Ok (intercalate sep ps).
Proof. intros. now apply join_ok. Qed.
Print Assumptions C51_join_partial.

(** Full statement (false when the size computation wraps): Join writes out of bounds instead of failing. *)
Theorem C51_join_overflow_refuted : forall w debug ps sepb sep,
  cstring sepb sep -> (2 ^ w <= N.of_nat (length (intercalate sep ps)))%N ->
  join w debug ps sepb = Fault OutOfBounds.
Proof. intros. eapply join_overflow; eauto. Qed.
Print Assumptions C51_join_overflow_refuted.

(** On a 32-bit target 65537 empty pieces and a 65536-byte separator suffice. *)
Example C51_overflow_reachable :
  let k := N.to_nat 65536 in
  let sep := repeat 45%N k in let ps := repeat (@nil N) (S k) in
  (2 ^ 32 <= N.of_nat (length (intercalate sep ps)))%N.
Proof.
  intros k sep ps. unfold ps. cbn [repeat].
  rewrite intercalate_length. unfold sep. rewrite !repeat_length, Nat2N.inj_add, Nat2N.inj_mul.
  unfold k. rewrite N2Nat.id. change (2 ^ 32)%N with (65536 * 65536)%N. lia.
Qed.
Example C51_nonvacuous :
  join 64 true [s_abc; []; s_abc]%N (c_str [45; 45]%N) = Ok [97;98;99;45;45;45;45;97;98;99]%N
  /\ join 2 false [[]; []]%N (c_str [45; 45; 45; 45]%N) = Fault OutOfBounds.
Proof. split; reflexivity. Qed.

(** * C52 StartsWith / EndsWith *)
Theorem C52_starts_with : forall a b s t,
  cstring a s -> cstring b t ->
  exists r, starts_with a b = Ok r /\ (r = true <-> exists rest, s = t ++ rest).
Proof.
  intros a b s t (ra & -> & Hn) Hb. exists (is_prefix t s). split; [|apply is_prefix_spec].
  eapply starts_with_ok; eauto.
Qed.
Print Assumptions C52_starts_with.

Theorem C52_starts_with_string : forall s b t,
  cstring b t ->
  exists r, starts_with_string s b = Ok r /\ (r = true <-> exists rest, s = t ++ rest).
Proof.
  intros s b t Hb. exists (is_prefix t s). split; [|apply is_prefix_spec].
  unfold starts_with_string. eapply starts_with_ok; eauto. reflexivity.
Qed.
Print Assumptions C52_starts_with_string.

Theorem C52_ends_with : forall a b,
  exists r, ends_with a b = Ok r /\ (r = true <-> exists front, a = front ++ b).
Proof. intros. apply ends_with_ok. Qed.
Print Assumptions C52_ends_with.

Example C52_nonvacuous :
  starts_with (c_str s_abc) (c_str [97; 98]%N) = Ok true
  /\ starts_with (c_str [97]%N) (c_str [97; 98]%N) = Ok false
  /\ ends_with s_abc [98; 99]%N = Ok true /\ ends_with s_abc [97; 98]%N = Ok false.
Proof. repeat split; reflexivity. Qed.

(** * C53 Uppercase / Lowercase *)
(** Full statement (false where plain char is signed): bytes 0x80..0xFE reach toupper/tolower as negative ints,
    outside their domain. *)
Theorem C53_case_refuted : forall s1 c s2,
  Forall (fun b => 0 < b < 128)%N s1 -> (128 <= c < 255)%N -> ~ In 0%N s2 ->
  uppercase true (c_str (s1 ++ c :: s2)) = Fault BadArg
  /\ lowercase true (c_str (s1 ++ c :: s2)) = Fault BadArg.
Proof.
  intros s1 c s2 H1 Hc H2. unfold uppercase, lowercase.
  rewrite (read_cstring _ (s1 ++ c :: s2)).
  2:{ apply cstring_c_str. rewrite in_app_iff. cbn. intros [H|[H|H]]; [|lia|auto].
      rewrite Forall_forall in H1. specialize (H1 _ H). lia. }
  cbn [bind].
  assert (H1' : Forall (fun b => (b < 128)%N) s1) by (eapply Forall_impl; [|exact H1]; cbn; lia).
  split; apply map_chars_bad; auto.
Qed.
Print Assumptions C53_case_refuted.

(** What holds: exact ASCII mapping when char is unsigned, or for ASCII (and 0xFF) text. *)
Theorem C53_case_partial : forall char_signed buf s,
  cstring buf s -> Forall is_byte s ->
  char_signed = false \/ Forall (fun c => (c < 128)%N \/ c = 255%N) s ->
  uppercase char_signed buf = Ok (map ascii_upper s)
  /\ lowercase char_signed buf = Ok (map ascii_lower s).
Proof.
  intros char_signed buf s Hs Hb H. unfold uppercase, lowercase. rewrite (read_cstring _ _ Hs). cbn [bind].
  assert (Hf : Forall (fun c => is_byte c /\ (char_signed = false \/ (c < 128)%N \/ c = 255%N)) s).
  { rewrite Forall_forall in *. intros x Hx. split; [auto|]. destruct H as [H|H]; auto. }
  split; eapply map_chars_ok; try exact Hf; cbn; intros c [H1 H2].
  - now apply toupper_ok.
  - now apply tolower_ok.
Qed.
Print Assumptions C53_case_partial.

(** The mappings are idempotent, length preserving and keep a C string a C string. *)
Theorem C53_case_idempotent_partial : forall s,
  map ascii_upper (map ascii_upper s) = map ascii_upper s
  /\ map ascii_lower (map ascii_lower s) = map ascii_lower s
  /\ length (map ascii_upper s) = length s /\ length (map ascii_lower s) = length s
  /\ (~ In 0%N s -> ~ In 0%N (map ascii_upper s) /\ ~ In 0%N (map ascii_lower s)).
Proof.
  intros s. rewrite !map_map, !map_length. repeat split; auto.
  - apply map_ext. intros c. unfold ascii_upper. destruct (N.leb_spec 97 c), (N.leb_spec c 122); cbn [andb]; case_leb; lia.
  - apply map_ext. intros c. unfold ascii_lower. destruct (N.leb_spec 65 c), (N.leb_spec c 90); cbn [andb]; case_leb; lia.
  - rewrite in_map_iff. intros (c & E & Hi). unfold ascii_upper in E. revert E. case_leb; intros E; try lia; subst; auto.
  - rewrite in_map_iff. intros (c & E & Hi). unfold ascii_lower in E. revert E. case_leb; intros E; try lia; subst; auto.
Qed.
Print Assumptions C53_case_idempotent_partial.

Example C53_nonvacuous :
  uppercase true (c_str [97; 49; 90]%N) = Ok [65; 49; 90]%N
  /\ lowercase false (c_str [65; 233; 122]%N) = Ok [97; 233; 122]%N
  /\ uppercase true (c_str [195; 169]%N) = Fault BadArg.
Proof. repeat split; reflexivity. Qed.

(** * C54 path::Format *)
(** Separators: 47 is '/', 92 is '\'. *)
Definition normalised (windows : bool) (c : N) : N :=
  match windows, c with
  | true, 47%N => 92%N
  | false, 92%N => 47%N
  | _, _ => c
  end.

Theorem C54_path_format : forall w msvc windows buf max r,
  (32 <= w)%N -> max <= length buf -> (N.of_nat max <= 2 ^ (w - 1))%N -> formatted_wf r ->
  exists plain n, safe_sprintf w msvc buf max r = Ok (plain, n)
    /\ path_format w msvc windows buf max r
       = Ok (map (normalised windows) (firstn n plain) ++ skipn n plain, n).
Proof.
  intros w msvc windows buf max r Hw Hm Hmax Hr.
  destruct (C46_safe_sprintf_bounded w msvc buf max r Hw Hm Hmax Hr) as (b & n & H1 & H2 & _ & H4 & H5).
  exists b, n. split; [exact H1|]. unfold path_format. rewrite H1. cbn [bind].
  assert (Hn : n <= length b).
  { destruct (Nat.eq_dec max 0) as [->|]; [destruct H5; lia|]. destruct H4; lia. }
  rewrite sep_loop_ok by lia. cbn [bind firstn skipn app Nat.add].
  f_equal. f_equal. f_equal. apply map_ext. intros c. unfold native_sep, normalised.
  destruct windows.
  - destruct (N.eqb_spec c 47) as [->|Hc]; auto. destruct c as [|p]; auto.
    repeat (destruct p as [p|p|]; auto). congruence.
  - destruct (N.eqb_spec c 92) as [->|Hc]; auto. destruct c as [|p]; auto.
    repeat (destruct p as [p|p|]; auto). congruence.
Qed.
Print Assumptions C54_path_format.

(** On formatted text: the truncated text with separators normalised, then NUL, the rest untouched. *)
Theorem C54_path_format_text : forall w msvc windows buf max t,
  (32 <= w)%N -> 0 < max <= length buf -> (N.of_nat max <= 2 ^ (w - 1))%N -> formatted_wf (Text t) ->
  let k := Nat.min (length t) (max - 1) in
  path_format w msvc windows buf max (Text t)
  = Ok (map (normalised windows) (firstn k t) ++ [0%N] ++ skipn (k + 1) buf, k).
Proof.
  intros w msvc windows buf max t Hw Hm Hmax Ht k.
  destruct (C54_path_format w msvc windows buf max (Text t) Hw ltac:(lia) Hmax Ht) as (b & n & H1 & H2).
  rewrite (C46_safe_sprintf_text w msvc buf max t Hw Hm Hmax Ht) in H1. fold k in H1.
  assert (Hl : length (firstn k t) = k) by (rewrite firstn_length; unfold k; lia).
  clearbody k. injection H1 as <- <-. rewrite H2.
  assert (H3 : forall (p q : list N), length p = k -> firstn k (p ++ q) = p /\ skipn k (p ++ q) = q).
  { intros p q <-. now rewrite firstn_app_len, skipn_app_len. }
  destruct (H3 (firstn k t) ([0%N] ++ skipn (k + 1) buf) Hl) as [H4 H5].
  cbn [app] in *. now rewrite H4, H5.
Qed.
Print Assumptions C54_path_format_text.

Example C54_nonvacuous :
  path_format 64 false false (repeat 1%N 8) 8 (Text [97; 92; 98; 47; 99]%N) = Ok ([97; 47; 98; 47; 99; 0; 1; 1]%N, 5)
  /\ path_format 64 true true (repeat 1%N 8) 4 (Text [97; 92; 98; 47; 99]%N) = Ok ([97; 92; 98; 0; 1; 1; 1; 1]%N, 3).
Proof. split; reflexivity. Qed.
