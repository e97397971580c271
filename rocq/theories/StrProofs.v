(** Proofs about the string model. *)
From Verif Require Import Base StrModel StrSpec.

(** * Lists *)
Lemma firstn_S_nth {A} (l : list A) k x :
  nth_error l k = Some x -> firstn (S k) l = firstn k l ++ [x].
Proof.
  revert l; induction k as [|k IH]; intros [|h t] H; cbn in *; try discriminate.
  - now injection H as ->.
  - f_equal. now apply IH.
Qed.

Lemma skipn_S_nth {A} (l : list A) k x :
  nth_error l k = Some x -> skipn k l = x :: skipn (S k) l.
Proof.
  revert l; induction k as [|k IH]; intros [|h t] H; cbn in *; try discriminate.
  - now injection H as ->.
  - now apply IH.
Qed.

Lemma skipn_add {A} (x y : nat) (l : list A) : skipn x (skipn y l) = skipn (x + y) l.
Proof.
  revert l; induction y as [|y IH]; intros l.
  - now rewrite Nat.add_0_r.
  - destruct l; [now rewrite !skipn_nil|]. rewrite Nat.add_succ_r. cbn. apply IH.
Qed.

(** Writing one byte just after an already written prefix. *)
Lemma upd_prefix (p d : list N) x :
  length p < length d ->
  upd (p ++ skipn (length p) d) (length p) x = p ++ x :: skipn (S (length p)) d.
Proof.
  intros H.
  destruct (nth_error d (length p)) as [y|] eqn:E.
  2:{ apply nth_error_None in E. lia. }
  rewrite (skipn_S_nth _ _ _ E).
  clear. generalize (skipn (S (length p)) d). intros r.
  induction p as [|h t IH]; cbn; auto. now rewrite IH.
Qed.

Lemma prefix_length (p d : list N) :
  length p <= length d -> length (p ++ skipn (length p) d) = length d.
Proof. intros. rewrite app_length, skipn_length. lia. Qed.

Lemma cstring_nth buf s i :
  cstring buf s -> i < length s -> nth_error buf i = nth_error s i.
Proof. intros (r & -> & _) H. now rewrite nth_error_app1. Qed.
Lemma cstring_end buf s : cstring buf s -> nth_error buf (length s) = Some 0%N.
Proof. intros (r & -> & _). rewrite nth_error_app2 by lia. now rewrite Nat.sub_diag. Qed.
Lemma cstring_nonzero buf s i x : cstring buf s -> nth_error s i = Some x -> x <> 0%N.
Proof. intros (r & _ & H) E ->. apply H. eapply nth_error_In; eauto. Qed.
Lemma cstring_len buf s : cstring buf s -> length s < length buf.
Proof. intros (r & -> & _). rewrite app_length. cbn. lia. Qed.

Lemma cstr_of_cstring buf s : cstring buf s -> cstr_of buf = Some s.
Proof.
  intros (r & -> & H). induction s as [|c t IH]; cbn; auto.
  destruct (N.eqb_spec c 0) as [->|_]; [destruct H; now left|].
  rewrite IH; auto. intros Hi; apply H; now right.
Qed.
Lemma cstr_of_sound buf s : cstr_of buf = Some s -> cstring buf s.
Proof.
  revert s. induction buf as [|c t IH]; intros s; cbn; [discriminate|].
  destruct (N.eqb_spec c 0) as [->|Hc].
  - intros [= <-]. exists t. split; auto.
  - destruct (cstr_of t) as [u|] eqn:E; [|discriminate]. intros [= <-].
    destruct (IH _ eq_refl) as (r & -> & Hn). exists r. split; auto.
    intros [->|Hi]; auto.
Qed.
Lemma cstring_unique buf s s' : cstring buf s -> cstring buf s' -> s = s'.
Proof. intros H H'. apply cstr_of_cstring in H, H'. congruence. Qed.
Lemma read_cstring buf s : cstring buf s -> read_cstr buf = Ok s.
Proof. intros H. unfold read_cstr. now rewrite (cstr_of_cstring _ _ H). Qed.
Lemma cstring_c_str s : ~ In 0%N s -> cstring (c_str s) s.
Proof. intros H. now exists []. Qed.

Lemma firstn_len_min {A} (l : list A) k : length (firstn k l) = Nat.min k (length l).
Proof. apply firstn_length. Qed.

(** * SafeStrcpy *)
Lemma dec_pos w c : 0 < c -> dec w c = c - 1.
Proof. intros H. unfold dec. destruct (Nat.eqb_spec c 0); lia. Qed.

Lemma strcpy_loop_ok w src s d max : cstring src s -> 0 < max <= length d ->
  forall k fuel, k <= length s -> k <= max - 1 -> length s - k < fuel ->
  strcpy_loop w fuel (firstn k s ++ skipn k d) k src k (max - k)
  = Ok (firstn (Nat.min (length s) (max - 1)) s ++ skipn (Nat.min (length s) (max - 1)) d,
        Nat.min (length s) (max - 1)).
Proof.
  intros Hs Hm k fuel. revert k. induction fuel as [|f IH]; intros k Hk Hk' Hf; [lia|].
  cbn [strcpy_loop].
  destruct (Nat.eq_dec k (length s)) as [->|Hne].
  - rewrite (slot_get_ok _ _ _ (cstring_end _ _ Hs)). cbn [bind]. cbn.
    now rewrite Nat.min_l by lia.
  - destruct (nth_error s k) as [c|] eqn:E.
    2:{ apply nth_error_None in E. lia. }
    rewrite (slot_get_ok src k c) by (rewrite (cstring_nth _ _ _ Hs); auto; lia). cbn [bind].
    destruct (N.eqb_spec c 0) as [->|Hc].
    { destruct (cstring_nonzero _ _ _ _ Hs E eq_refl). }
    rewrite dec_pos by lia.
    destruct (Nat.eqb_spec (max - k - 1) 0) as [Hz|Hnz].
    + assert (k = max - 1) as -> by lia. now rewrite Nat.min_r by lia.
    + assert (Hl : length (firstn k s) = k) by (rewrite firstn_length; lia).
      assert (Hu : upd (firstn k s ++ skipn k d) k c = firstn (S k) s ++ skipn (S k) d).
      { pose proof (upd_prefix (firstn k s) d c) as Hu. rewrite Hl in Hu.
        rewrite Hu by lia. rewrite (firstn_S_nth _ _ _ E), <- app_assoc. reflexivity. }
      rewrite slot_set_ok.
      2:{ rewrite app_length, Hl, skipn_length. lia. }
      cbn [bind]. rewrite Hu.
      replace (max - k - 1) with (max - (k + 1)) by lia.
      replace (S k) with (k + 1) by lia.
      apply IH; lia.
Qed.

Lemma finish_nul (p d : list N) :
  length p < length d ->
  slot_set (p ++ skipn (length p) d) (length p) 0%N = Ok (p ++ 0%N :: skipn (S (length p)) d).
Proof.
  intros H. rewrite slot_set_ok by (rewrite prefix_length; lia). now rewrite upd_prefix.
Qed.

Lemma safe_strcpy_ok w dest max src s :
  cstring src s -> 0 < max <= length dest ->
  let k := Nat.min (length s) (max - 1) in
  safe_strcpy w (Some dest) max src = Ok (Some (firstn k s ++ 0%N :: skipn (S k) dest), k).
Proof.
  intros Hs Hm k. unfold safe_strcpy.
  destruct (Nat.eqb_spec max 0); [lia|].
  pose proof (strcpy_loop_ok w src s dest max Hs Hm 0 (S (length src))) as H.
  rewrite !Nat.sub_0_r in H. cbn [firstn skipn app] in H.
  pose proof (cstring_len _ _ Hs).
  rewrite H by lia. fold k. cbn [bind].
  assert (Hl : length (firstn k s) = k) by (rewrite firstn_length; unfold k; lia).
  pose proof (finish_nul (firstn k s) dest) as Hf. rewrite Hl in Hf.
  rewrite Hf by (unfold k; lia). reflexivity.
Qed.

(** * SafeStrcat *)
Lemma find_nul_ok dest d fuel k :
  cstring dest d -> k <= length d -> length d - k < fuel -> find_nul fuel dest k = Ok (length d).
Proof.
  intros Hd. revert k. induction fuel as [|f IH]; intros k Hk Hf; [lia|]. cbn [find_nul].
  destruct (Nat.eq_dec k (length d)) as [->|Hne].
  - rewrite (slot_get_ok _ _ _ (cstring_end _ _ Hd)). reflexivity.
  - destruct (nth_error d k) as [c|] eqn:E.
    2:{ apply nth_error_None in E. lia. }
    rewrite (slot_get_ok dest k c) by (rewrite (cstring_nth _ _ _ Hd); auto; lia). cbn [bind].
    destruct (N.eqb_spec c 0) as [->|Hc].
    { destruct (cstring_nonzero _ _ _ _ Hd E eq_refl). }
    apply IH; lia.
Qed.

Lemma strcat_loop_ok src s dest d max :
  cstring src s -> cstring dest d -> max <= length dest ->
  let K := Nat.min (length s) (max - 1 - length d) in
  forall k fuel, k <= K -> length s - k < fuel ->
  strcat_loop fuel ((d ++ firstn k s) ++ skipn (length d + k) dest) (length d + k) max src k
  = Ok ((d ++ firstn K s) ++ skipn (length d + K) dest, length d + K).
Proof.
  intros Hs Hd Hm K k fuel. revert k. induction fuel as [|f IH]; intros k Hk Hf; [lia|].
  cbn [strcat_loop].
  destruct (Nat.eq_dec k (length s)) as [->|Hne].
  - rewrite (slot_get_ok _ _ _ (cstring_end _ _ Hs)). cbn [bind].
    assert (K = length s) as -> by (unfold K in *; lia). reflexivity.
  - assert (k < length s) by (unfold K in *; lia).
    destruct (nth_error s k) as [c|] eqn:E.
    2:{ apply nth_error_None in E. lia. }
    rewrite (slot_get_ok src k c) by (rewrite (cstring_nth _ _ _ Hs); auto; lia). cbn [bind].
    destruct (N.eqb_spec c 0) as [->|Hc].
    { destruct (cstring_nonzero _ _ _ _ Hs E eq_refl). }
    destruct (Nat.ltb_spec (length d + k + 1) max) as [Hlt|Hge].
    + assert (Hl : length (d ++ firstn k s) = length d + k) by (rewrite app_length, firstn_length; lia).
      pose proof (upd_prefix (d ++ firstn k s) dest c) as Hu. rewrite Hl in Hu.
      rewrite slot_set_ok.
      2:{ rewrite app_length, Hl, skipn_length. lia. }
      cbn [bind]. rewrite Hu by lia.
      replace ((d ++ firstn k s) ++ c :: skipn (S (length d + k)) dest)
        with ((d ++ firstn (k + 1) s) ++ skipn (length d + (k + 1)) dest).
      2:{ replace (k + 1) with (S k) by lia. rewrite (firstn_S_nth _ _ _ E), <- !app_assoc. cbn [app].
          now replace (length d + S k) with (S (length d + k)) by lia. }
      replace (length d + k + 1) with (length d + (k + 1)) by lia.
      apply IH; unfold K; lia.
    + assert (K = k) as -> by (unfold K in *; lia). reflexivity.
Qed.

Lemma safe_strcat_ok dest d max src s :
  cstring src s -> cstring dest d -> max <= length dest ->
  let k := Nat.min (length s) (max - 1 - length d) in
  safe_strcat dest max src
  = Ok (d ++ firstn k s ++ 0%N :: skipn (S (length d + k)) dest, length d + k).
Proof.
  intros Hs Hd Hm k. unfold safe_strcat.
  pose proof (cstring_len _ _ Hs). pose proof (cstring_len _ _ Hd).
  rewrite (find_nul_ok dest d) by (auto; lia). cbn [bind].
  pose proof (strcat_loop_ok src s dest d max Hs Hd Hm 0 (S (length src))) as H1.
  cbn [firstn] in H1. rewrite app_nil_r, Nat.add_0_r in H1.
  replace (d ++ skipn (length d) dest) with dest in H1.
  2:{ destruct Hd as (r & -> & _). rewrite skipn_app, skipn_all, Nat.sub_diag. reflexivity. }
  rewrite H1 by lia. fold k. cbn [bind].
  assert (Hl : length (d ++ firstn k s) = length d + k).
  { rewrite app_length, firstn_length. unfold k; lia. }
  pose proof (finish_nul (d ++ firstn k s) dest) as Hf. rewrite Hl in Hf.
  rewrite Hf by (unfold k; lia). cbn [bind]. now rewrite <- app_assoc.
Qed.

(** * SafeStrcpyN: exact behaviour *)
Lemma strcpyn_loop_ok w src d max n :
  0 < max <= length d ->
  let K := Nat.min n (max - 1) in
  K <= length src ->
  forall k fuel, k <= K -> K - k < fuel ->
  strcpyn_loop w fuel (firstn k src ++ skipn k d) k src k (max - k) (n - k)
  = Ok (firstn K src ++ skipn K d, K).
Proof.
  intros Hm K HK k fuel. revert k. induction fuel as [|f IH]; intros k Hk Hf; [lia|].
  cbn [strcpyn_loop]. rewrite dec_pos by (unfold K in *; lia).
  destruct (Nat.eqb_spec (max - k - 1) 0) as [Hz|Hnz].
  { assert (K = k) as -> by (unfold K in *; lia). reflexivity. }
  destruct (Nat.eqb_spec (n - k) 0) as [Hz'|Hnz'].
  { assert (K = k) as -> by (unfold K in *; lia). reflexivity. }
  assert (k < K) by (unfold K in *; lia).
  destruct (nth_error src k) as [c|] eqn:E.
  2:{ apply nth_error_None in E. lia. }
  rewrite (slot_get_ok src k c) by auto. cbn [bind].
  assert (Hl : length (firstn k src) = k) by (rewrite firstn_length; lia).
  pose proof (upd_prefix (firstn k src) d c) as Hu. rewrite Hl in Hu.
  rewrite slot_set_ok.
  2:{ rewrite app_length, Hl, skipn_length. unfold K in *; lia. }
  cbn [bind]. rewrite Hu by (unfold K in *; lia).
  replace (firstn k src ++ c :: skipn (S k) d) with (firstn (k + 1) src ++ skipn (k + 1) d).
  2:{ replace (k + 1) with (S k) by lia. rewrite (firstn_S_nth _ _ _ E), <- app_assoc. reflexivity. }
  replace (max - k - 1) with (max - (k + 1)) by lia.
  replace (n - k - 1) with (n - (k + 1)) by lia.
  apply IH; lia.
Qed.

Lemma strcpyn_loop_oob w src d max n :
  0 < max <= length d ->
  length src < Nat.min n (max - 1) ->
  forall k fuel, k <= length src -> length src - k < fuel ->
  strcpyn_loop w fuel (firstn k src ++ skipn k d) k src k (max - k) (n - k) = Fault OutOfBounds.
Proof.
  intros Hm HK k fuel. revert k. induction fuel as [|f IH]; intros k Hk Hf; [lia|].
  cbn [strcpyn_loop]. rewrite dec_pos by lia.
  destruct (Nat.eqb_spec (max - k - 1) 0) as [Hz|Hnz]; [lia|].
  destruct (Nat.eqb_spec (n - k) 0) as [Hz'|Hnz']; [lia|].
  destruct (nth_error src k) as [c|] eqn:E.
  2:{ unfold slot_get. now rewrite E. }
  assert (k < length src) by (apply nth_error_Some; congruence).
  rewrite (slot_get_ok src k c) by auto. cbn [bind].
  assert (Hl : length (firstn k src) = k) by (rewrite firstn_length; lia).
  pose proof (upd_prefix (firstn k src) d c) as Hu. rewrite Hl in Hu.
  rewrite slot_set_ok.
  2:{ rewrite app_length, Hl, skipn_length. lia. }
  cbn [bind]. rewrite Hu by lia.
  replace (firstn k src ++ c :: skipn (S k) d) with (firstn (k + 1) src ++ skipn (k + 1) d).
  2:{ replace (k + 1) with (S k) by lia. rewrite (firstn_S_nth _ _ _ E), <- app_assoc. reflexivity. }
  replace (max - k - 1) with (max - (k + 1)) by lia.
  replace (n - k - 1) with (n - (k + 1)) by lia.
  apply IH; lia.
Qed.

Lemma safe_strcpyn_raw w dest max src n :
  0 < max <= length dest -> 0 < n ->
  let k := Nat.min n (max - 1) in
  k <= length src ->
  safe_strcpyn w (Some dest) max src n = Ok (Some (firstn k src ++ 0%N :: skipn (S k) dest), k).
Proof.
  intros Hm Hn k Hk. unfold safe_strcpyn.
  destruct (Nat.eqb_spec max 0); [lia|]. destruct (Nat.eqb_spec n 0); [lia|]. cbn [orb].
  pose proof (strcpyn_loop_ok w src dest max n Hm Hk 0 (S (S (length src)))) as H.
  rewrite !Nat.sub_0_r in H. cbn [firstn skipn app] in H.
  rewrite H by (fold k; lia). fold k. cbn [bind].
  assert (Hl : length (firstn k src) = k) by (rewrite firstn_length; lia).
  pose proof (finish_nul (firstn k src) dest) as Hf. rewrite Hl in Hf.
  rewrite Hf by (unfold k; lia). reflexivity.
Qed.

Lemma safe_strcpyn_oob w dest max src n :
  0 < max <= length dest ->
  length src < Nat.min n (max - 1) ->
  safe_strcpyn w (Some dest) max src n = Fault OutOfBounds.
Proof.
  intros Hm Hk. unfold safe_strcpyn.
  destruct (Nat.eqb_spec max 0); [lia|]. destruct (Nat.eqb_spec n 0); [lia|]. cbn [orb].
  pose proof (strcpyn_loop_oob w src dest max n Hm Hk 0 (S (S (length src)))) as H.
  rewrite !Nat.sub_0_r in H. cbn [firstn skipn app] in H.
  rewrite H by lia. reflexivity.
Qed.

(** * Formatting *)
Lemma blit_ok buf off bytes :
  off + length bytes <= length buf ->
  blit buf off bytes = Ok (firstn off buf ++ bytes ++ skipn (off + length bytes) buf).
Proof. intros H. unfold blit. destruct (Nat.leb_spec (off + length bytes) (length buf)); [auto|lia]. Qed.

Lemma blit0_ok buf bytes :
  length bytes <= length buf -> blit buf 0 bytes = Ok (bytes ++ skipn (length bytes) buf).
Proof. intros H. now rewrite blit_ok. Qed.

Lemma size_of_int_nonneg w x : (0 <= x)%Z -> (x < 2 ^ Z.of_N w)%Z -> size_of_int w x = Z.to_N x.
Proof. intros. unfold size_of_int. now rewrite Z.mod_small by lia. Qed.

Lemma pow_pos w : (0 < 2 ^ Z.of_N w)%Z.
Proof. apply Z.pow_pos_nonneg; lia. Qed.
Lemma pow_ge_int w : (32 <= w)%N -> (2 * int_max + 2 <= 2 ^ Z.of_N w)%Z.
Proof.
  intros H. unfold int_max. change (2 * 2147483647 + 2)%Z with (2 ^ 32)%Z.
  apply Z.pow_le_mono_r; lia.
Qed.
Lemma pow_half w : (1 <= w)%N -> (2 ^ Z.of_N w = 2 * 2 ^ Z.of_N (w - 1))%Z.
Proof.
  intros H. replace (Z.of_N w) with (Z.succ (Z.of_N (w - 1))) by lia.
  rewrite Z.pow_succ_r by lia. lia.
Qed.

Lemma size_of_int_neg w x :
  (32 <= w)%N -> (- int_max - 1 <= x < 0)%Z -> (2 ^ (w - 1) <= size_of_int w x)%N.
Proof.
  intros Hw Hx. unfold size_of_int.
  pose proof (pow_ge_int w Hw). pose proof (pow_half w ltac:(lia)) as Hh.
  replace (x mod 2 ^ Z.of_N w)%Z with (x + 2 ^ Z.of_N w)%Z.
  2:{ rewrite <- (Z_mod_plus_full x 1). rewrite Z.mul_1_l. symmetry. apply Z.mod_small. lia. }
  assert (E : Z.of_N (2 ^ (w - 1)) = (2 ^ Z.of_N (w - 1))%Z) by (rewrite N2Z.inj_pow; reflexivity).
  lia.
Qed.

Lemma safe_sprintf_text w msvc buf max t :
  (32 <= w)%N -> 0 < max <= length buf -> (N.of_nat max <= 2 ^ (w - 1))%N ->
  (Z.of_nat (length t) <= int_max)%Z ->
  let k := Nat.min (length t) (max - 1) in
  safe_sprintf w msvc buf max (Text t) = Ok (firstn k t ++ 0%N :: skipn (S k) buf, k).
Proof.
  intros Hw Hm Hmax Ht k. unfold safe_sprintf.
  destruct (Nat.eqb_spec max 0); [lia|].
  pose proof (pow_ge_int w Hw). pose proof (pow_pos w).
  assert (Hsz : size_of_int w (Z.of_nat (length t)) = N.of_nat (length t)).
  { rewrite size_of_int_nonneg; lia. }
  unfold ke_vsnprintf. destruct msvc.
  - destruct (Nat.ltb_spec (length t) max) as [Hlt|Hge].
    + rewrite blit0_ok by (rewrite app_length; cbn; lia). cbn [bind].
      rewrite Hsz.
      destruct (N.leb_spec (N.of_nat max) (N.of_nat (length t))); [lia|].
      rewrite Nat2N.id. unfold k. rewrite Nat.min_l by lia. rewrite firstn_all.
      rewrite app_length. cbn [length]. rewrite <- app_assoc. cbn [app].
      now replace (length t + 1) with (S (length t)) by lia.
    + rewrite blit0_ok by (rewrite firstn_length; lia). cbn [bind].
      assert (Hk : k = max - 1) by (unfold k; lia).
      assert (Hge' : (N.of_nat max <=?
        size_of_int w (if Nat.eqb (length t) max then Z.of_nat (length t) else (-1)%Z))%N = true).
      { apply N.leb_le. destruct (Nat.eqb_spec (length t) max) as [E|E].
        - rewrite Hsz. lia.
        - eapply N.le_trans; [exact Hmax|]. apply size_of_int_neg; [exact Hw|]. unfold int_max; lia. }
      rewrite Hge'.
      assert (Hlm : length (firstn max t) = max) by (rewrite firstn_length; lia).
      rewrite Hlm.
      destruct (nth_error t (max - 1)) as [c|] eqn:E.
      2:{ apply nth_error_None in E. lia. }
      assert (Ht' : firstn max t = firstn (max - 1) t ++ [c]).
      { replace max with (S (max - 1)) at 1 by lia. now apply firstn_S_nth. }
      rewrite slot_set_ok by (rewrite app_length, Hlm; lia).
      cbn [bind]. rewrite Ht', Hk, <- app_assoc. cbn [app].
      assert (Hl1 : length (firstn (max - 1) t) = max - 1) by (rewrite firstn_length; lia).
      pose proof (upd_split (firstn (max - 1) t ++ c :: skipn max buf) (max - 1) 0%N c) as Hu.
      destruct Hu as (l1 & l2 & Ha & Hb & Hc).
      { rewrite nth_error_app2 by lia. rewrite Hl1, Nat.sub_diag. reflexivity. }
      rewrite Hc.
      assert (l1 = firstn (max - 1) t /\ l2 = skipn max buf) as [-> ->].
      { rewrite <- Hl1 in Hb. symmetry in Ha. clear -Ha Hb.
        revert l1 Ha Hb. generalize (firstn (max - 1) t) as p. induction p; intros [|z l1] Ha Hb; cbn in *; try discriminate.
        - injection Ha as <-. auto.
        - injection Ha as -> Ha. destruct (IHp l1 Ha) as [-> ->]; auto. }
      now replace (S (max - 1)) with max by lia.
  - destruct (Nat.eqb_spec max 0); [lia|].
    assert (Hlk : firstn (max - 1) t = firstn k t).
    { unfold k. destruct (Nat.le_gt_cases (length t) (max - 1)).
      - rewrite Nat.min_l by lia. rewrite firstn_all2 by lia. now rewrite firstn_all.
      - now rewrite Nat.min_r by lia. }
    rewrite Hlk.
    assert (Hl : length (firstn k t ++ [0%N]) = S k).
    { rewrite app_length, firstn_length. cbn. unfold k; lia. }
    rewrite blit0_ok by (rewrite Hl; unfold k; lia). cbn [bind]. rewrite Hl, Hsz.
    rewrite <- app_assoc. cbn [app].
    destruct (N.leb_spec (N.of_nat max) (N.of_nat (length t))) as [Hle|Hlt].
    + assert (Hk : k = max - 1) by (unfold k; lia).
      assert (Hl1 : length (firstn k t) = k) by (rewrite firstn_length; unfold k; lia).
      rewrite slot_set_ok.
      2:{ rewrite app_length, Hl1. cbn [length]. rewrite skipn_length. lia. }
      cbn [bind]. rewrite <- Hk. f_equal. f_equal.
      assert (Hup : forall (p r : list N) i, length p = i -> upd (p ++ 0%N :: r) i 0%N = p ++ 0%N :: r).
      { clear. intros p r i <-. induction p; cbn; auto. now rewrite IHp. }
      now apply Hup.
    + rewrite Nat2N.id. assert (Hk : k = length t) by (unfold k; lia). now rewrite <- Hk.
Qed.

Lemma safe_sprintf_error w msvc buf max g ret :
  (32 <= w)%N -> 0 < max <= length buf -> (N.of_nat max <= 2 ^ (w - 1))%N ->
  (- int_max - 1 <= ret < 0)%Z ->
  exists buf', safe_sprintf w msvc buf max (FmtError g ret) = Ok (buf', max - 1)
    /\ length buf' = length buf
    /\ skipn max buf' = skipn max buf
    /\ nth_error buf' (max - 1) = Some 0%N.
Proof.
  intros Hw Hm Hmax Hr. unfold safe_sprintf.
  destruct (Nat.eqb_spec max 0); [lia|]. unfold ke_vsnprintf.
  assert (Hg : length (firstn max g) <= max) by (rewrite firstn_length; lia).
  rewrite blit0_ok by lia. cbn [bind].
  pose proof (size_of_int_neg w ret Hw Hr).
  rewrite (proj2 (N.leb_le (N.of_nat max) (size_of_int w ret))) by (eapply N.le_trans; eassumption).
  set (b := firstn max g ++ skipn (length (firstn max g)) buf).
  assert (Hb : length b = length buf) by (unfold b; rewrite prefix_length; lia).
  rewrite slot_set_ok by lia. cbn [bind].
  exists (upd b (max - 1) 0%N). split; [auto|]. split; [now rewrite upd_length|]. split.
  - assert (Hsk : forall (l : list N) i x m, i < m -> skipn m (upd l i x) = skipn m l).
    { clear. induction l as [|h t IH]; intros [|i] x [|m] H; cbn; auto; try lia. apply IH. lia. }
    rewrite Hsk by lia. unfold b. rewrite skipn_app.
    rewrite (skipn_all2 (firstn max g)) by lia. cbn [app].
    rewrite skipn_add. f_equal. lia.
  - apply nth_error_upd_eq. lia.
Qed.

Lemma measure_text msvc t :
  measure msvc (Text t) = Ok (Z.of_nat (length t)).
Proof.
  unfold measure. destruct msvc; auto. unfold ke_vsnprintf. cbn [Nat.eqb].
  rewrite blit0_ok; auto. rewrite app_length, firstn_length. cbn [length]. lia.
Qed.
Lemma measure_error msvc g ret : (ret < 0)%Z -> exists x, measure msvc (FmtError g ret) = Ok x /\ (x < 0)%Z.
Proof.
  intros Hr. unfold measure. destruct msvc.
  - exists (-1)%Z. split; auto. lia.
  - unfold ke_vsnprintf. rewrite blit0_ok by (rewrite firstn_length; cbn [length]; lia). cbn. eauto.
Qed.

Lemma repeat_skipn_all (n : nat) (l : list N) : length l = n -> skipn n l = [].
Proof. intros <-. apply skipn_all. Qed.

Lemma sprintf_impl_text debug msvc t :
  (Z.of_nat (length t) < int_max)%Z ->
  sprintf_args_impl debug msvc (Text t) (Text t) = Ok (Some (t ++ [0%N]), length t).
Proof.
  intros H. unfold sprintf_args_impl. rewrite measure_text. cbn [bind].
  destruct (Z.ltb_spec (Z.of_nat (length t)) 0); [lia|].
  destruct (Z.eqb_spec (Z.of_nat (length t)) 0) as [E|E].
  - destruct t; [reflexivity|cbn in E; lia].
  - unfold int_succ. destruct (Z.eqb_spec (Z.of_nat (length t)) int_max); [lia|]. cbn [bind].
    replace (Z.to_nat (Z.of_nat (length t) + 1)) with (S (length t)) by lia.
    unfold ke_vsnprintf.
    assert (Hb : blit (repeat 0%N (S (length t))) 0 (t ++ [0%N]) = Ok (t ++ [0%N])).
    { rewrite blit0_ok by (rewrite repeat_length, app_length; cbn; lia).
      rewrite skipn_all2, app_nil_r; auto. rewrite repeat_length, app_length. cbn. lia. }
    destruct msvc.
    + destruct (Nat.ltb_spec (length t) (S (length t))); [|lia]. rewrite Hb. cbn [bind].
      destruct (Z.ltb_spec (Z.of_nat (length t)) 0); [lia|].
      rewrite Z.eqb_refl. unfold assert_. rewrite andb_false_r. cbn [bind]. now rewrite Nat2Z.id.
    + cbn [Nat.eqb]. replace (S (length t) - 1) with (length t) by lia. rewrite firstn_all, Hb. cbn [bind].
      destruct (Z.ltb_spec (Z.of_nat (length t)) 0); [lia|].
      rewrite Z.eqb_refl. unfold assert_. rewrite andb_false_r. cbn [bind]. now rewrite Nat2Z.id.
Qed.

Lemma sprintf_impl_overflow debug msvc t r2 :
  Z.of_nat (length t) = int_max ->
  sprintf_args_impl debug msvc (Text t) r2 = Fault SignedOverflow.
Proof.
  intros H. unfold sprintf_args_impl. rewrite measure_text. cbn [bind]. rewrite H. reflexivity.
Qed.

Lemma sprintf_impl_error1 debug msvc g ret r2 :
  (ret < 0)%Z -> sprintf_args_impl debug msvc (FmtError g ret) r2 = Ok (None, 0).
Proof.
  intros H. unfold sprintf_args_impl. destruct (measure_error msvc g ret H) as (x & -> & Hx). cbn [bind].
  destruct (Z.ltb_spec x 0); [reflexivity|lia].
Qed.

Lemma sprintf_impl_error2 debug msvc t g ret :
  t <> [] -> (Z.of_nat (length t) < int_max)%Z -> (ret < 0)%Z ->
  sprintf_args_impl debug msvc (Text t) (FmtError g ret) = Ok (None, 0).
Proof.
  intros Ht H Hr. unfold sprintf_args_impl. rewrite measure_text. cbn [bind].
  destruct (Z.ltb_spec (Z.of_nat (length t)) 0); [lia|].
  destruct (Z.eqb_spec (Z.of_nat (length t)) 0) as [E|E].
  - destruct t; [congruence|cbn in E; lia].
  - unfold int_succ. destruct (Z.eqb_spec (Z.of_nat (length t)) int_max); [lia|]. cbn [bind].
    unfold ke_vsnprintf. rewrite blit0_ok.
    2:{ rewrite repeat_length, firstn_length. lia. }
    cbn [bind]. destruct (Z.ltb_spec ret 0); [reflexivity|lia].
Qed.

(** * path::Format *)
Lemma sep_loop_ok windows : forall steps dest i,
  i + steps <= length dest ->
  sep_loop windows steps dest i
  = Ok (firstn i dest ++ map (native_sep windows) (firstn steps (skipn i dest)) ++ skipn (i + steps) dest).
Proof.
  induction steps as [|k IH]; intros dest i H; cbn [sep_loop].
  - rewrite Nat.add_0_r. cbn. now rewrite firstn_skipn.
  - destruct (nth_error dest i) as [c|] eqn:E.
    2:{ apply nth_error_None in E. lia. }
    rewrite (slot_get_ok _ _ _ E). cbn [bind]. rewrite slot_set_ok by lia. cbn [bind].
    rewrite IH by (rewrite upd_length; lia).
    destruct (upd_split dest i (native_sep windows c) c E) as (l1 & l2 & -> & Hl & ->).
    rewrite app_length in H. cbn [length] in H.
    f_equal. subst i.
    replace (length l1 + 1) with (length (l1 ++ [native_sep windows c])) at 1 2
      by (rewrite app_length; cbn; lia).
    replace (l1 ++ native_sep windows c :: l2) with ((l1 ++ [native_sep windows c]) ++ l2)
      by (rewrite <- app_assoc; reflexivity).
    rewrite firstn_app, firstn_all, Nat.sub_diag. cbn [firstn]. rewrite app_nil_r.
    rewrite (skipn_app (length (l1 ++ _))), skipn_all, Nat.sub_diag. cbn [skipn app].
    rewrite (firstn_app (length l1)), firstn_all, Nat.sub_diag. cbn [firstn]. rewrite app_nil_r.
    rewrite (skipn_app (length l1)), skipn_all, Nat.sub_diag. cbn [skipn app].
    cbn [firstn map]. rewrite <- app_assoc. cbn [app]. f_equal. f_equal. f_equal.
    replace (length l1 + 1 + k) with (length (l1 ++ [native_sep windows c]) + k)
      by (rewrite app_length; cbn; lia).
    rewrite (skipn_app (length (l1 ++ _) + k)). rewrite (skipn_all2 (l1 ++ [native_sep windows c])) by lia. cbn [app].
    rewrite (skipn_app (length l1 + S k)). rewrite (skipn_all2 l1) by lia. cbn [app].
    replace (length l1 + S k - length l1) with (S k) by lia. cbn [skipn]. f_equal. lia.
Qed.
