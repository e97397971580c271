(** Texts and names: strtol and the value policies, separators, option lookup. *)
From Coq Require Import String.
From Verif Require Import Base ArgModel ArgSpec.
Local Open Scope nat_scope.
Local Open Scope list_scope.

(** * Numbers *)
Definition dval (a : Z) (c : N) : Z := (10 * a + (Z.of_N c - 48))%Z.
Definition evald (ds : str) (a : Z) : Z := fold_left dval ds a.
Lemma isdigit_iff c : isdigit c = true <-> (48 <= c <= 57)%N.
Proof. unfold isdigit. lia. Qed.
Lemma isspace_iff c : isspace c = true <-> blank c.
Proof.
  unfold isspace, blank. cbn [In]. rewrite orb_true_iff, andb_true_iff, N.eqb_eq, !N.leb_le. split.
  - intros [->|[H1 H2]]; [auto|].
    assert (c = 9 \/ c = 10 \/ c = 11 \/ c = 12 \/ c = 13)%N by lia. intuition.
  - intros H. intuition subst; lia.
Qed.

Lemma digits_spec s : forall acc, exists n,
  digits s acc = (evald (firstn n s) acc, n) /\ n <= length s /\ forallb isdigit (firstn n s) = true
  /\ (n = length s \/ isdigit (chr s n) = false).
Proof.
  induction s as [|c t IH]; intros acc; cbn [digits].
  - exists 0. cbn. auto.
  - destruct (isdigit c) eqn:E.
    + destruct (IH (10 * acc + (Z.of_N c - 48))%Z) as (n & -> & Hn & Hf & Hs).
      exists (S n). cbn [firstn forallb length]. unfold evald. cbn [fold_left]. rewrite E.
      split; [reflexivity|]. split; [lia|]. split; [exact Hf|]. destruct Hs as [Hs|Hs]; [lia|]. right. exact Hs.
    + exists 0. cbn. split; [reflexivity|]. split; [lia|]. auto.
Qed.
Lemma digits_all s acc : forallb isdigit s = true -> digits s acc = (evald s acc, length s).
Proof.
  intros H. destruct (digits_spec s acc) as (n & -> & Hn & Hf & [->|Hs]).
  - now rewrite firstn_all.
  - destruct (Nat.eq_dec n (length s)) as [->|Hne]; [now rewrite firstn_all|].
    rewrite forallb_forall in H. unfold chr in Hs. rewrite H in Hs; [discriminate|]. apply nth_In. lia.
Qed.
Lemma evald_app a b x : evald (a ++ b) x = evald b (evald a x).
Proof. unfold evald. now rewrite fold_left_app. Qed.
Lemma decimal_iff ds m : decimal ds m <-> ds <> [] /\ forallb isdigit ds = true /\ m = evald ds 0.
Proof.
  split.
  - induction 1 as [d Hd|s z d H (H1 & H2 & H3) Hd].
    + split; [discriminate|]. cbn [forallb]. rewrite andb_true_r, isdigit_iff. split; [lia|].
      unfold evald, dval. cbn [fold_left]. lia.
    + split; [destruct s; discriminate|]. rewrite forallb_app, H2. cbn [forallb]. rewrite andb_true_r, andb_true_l.
      rewrite isdigit_iff. split; [lia|]. rewrite evald_app, <- H3. unfold evald, dval. cbn [fold_left]. lia.
  - revert m. induction ds as [|c ds IH] using rev_ind; intros m (Hn & Hf & ->); [easy|].
    rewrite forallb_app in Hf. apply andb_true_iff in Hf as [Hf Hc]. cbn [forallb] in Hc.
    rewrite andb_true_r in Hc. apply isdigit_iff in Hc. rewrite evald_app. unfold evald at 1, dval. cbn [fold_left].
    assert (Ec : c = Z.to_N (48 + (Z.of_N c - 48))) by lia.
    destruct ds as [|d ds].
    + unfold evald. cbn [fold_left app]. rewrite Ec at 1. constructor. lia.
    + rewrite Ec at 1. apply decimal_more; [|lia]. apply IH. split; [discriminate|]. auto.
Qed.

Lemma skip_spaces_spec s : skip_spaces s <= length s /\ Forall blank (firstn (skip_spaces s) s)
  /\ (skip_spaces s = length s \/ isspace (chr s (skip_spaces s)) = false).
Proof.
  induction s as [|c t IH]; cbn [skip_spaces]; [cbn; auto|].
  destruct (isspace c) eqn:E.
  - destruct IH as (H1 & H2 & H3). cbn [length firstn]. split; [lia|]. split.
    + constructor; auto. now apply isspace_iff.
    + destruct H3; [lia|auto].
  - cbn. split; [lia|]. auto.
Qed.
Lemma skip_spaces_app sp r : Forall blank sp -> isspace (chr r 0) = false -> skip_spaces (sp ++ r) = length sp.
Proof.
  intros H Hr. induction H as [|c t Hc Ht IH]; cbn [app skip_spaces length].
  - destruct r as [|x r]; [reflexivity|]. cbn [skip_spaces]. cbn in Hr. now rewrite Hr.
  - apply isspace_iff in Hc. rewrite Hc. now rewrite IH.
Qed.
Lemma clamp_squeeze lb z : (0 < lb)%Z -> to_int (clamp lb z) = squeeze lb z.
Proof.
  intros Hl. unfold squeeze. f_equal. unfold clamp. assert (0 < 2 ^ (lb - 1))%Z by (apply Z.pow_pos_nonneg; lia).
  destruct (Z.ltb_spec z (- 2 ^ (lb - 1))); [lia|]. destruct (Z.leb_spec (2 ^ (lb - 1)) z); lia.
Qed.

Lemma strtol_integer lb s z : integer s z -> strtol lb s = (clamp lb z, length s) /\ 0 < length s.
Proof.
  intros [sp sg ds m z' Hsp Hd Hz]. apply decimal_iff in Hd as (Hn & Hf & Hm).
  destruct ds as [|d ds]; [easy|]. pose proof Hf as Hf'. cbn [forallb] in Hf. apply andb_true_iff in Hf as [Hd _].
  apply isdigit_iff in Hd.
  assert (Hhd : isspace (chr (sg ++ d :: ds) 0) = false).
  { destruct Hz as [[-> _]|[[-> _]|[-> _]]]; cbn; try reflexivity. unfold isspace. lia. }
  unfold strtol. rewrite (skip_spaces_app sp _ Hsp Hhd).
  rewrite skipn_app, skipn_all, Nat.sub_diag. cbn [skipn app].
  split; [|rewrite !app_length; cbn [length]; lia].
  destruct Hz as [[-> ->]|[[-> ->]|[-> ->]]].
  - cbn [app]. replace (N.eqb d 45) with false by lia. replace (N.eqb d 43) with false by lia.
    cbv beta iota zeta. rewrite digits_all by exact Hf'. cbn [length Nat.eqb]. subst m. rewrite !app_length. cbn [length]. f_equal. lia.
  - change (lit "+") with [43%N]. cbn [app]. change (N.eqb 43 45) with false. change (N.eqb 43 43) with true.
    cbv beta iota zeta. rewrite digits_all by exact Hf'. cbn [length Nat.eqb]. subst m. rewrite !app_length.
    cbn [length]. f_equal. lia.
  - change (lit "-") with [45%N]. cbn [app]. change (N.eqb 45 45) with true.
    cbv beta iota zeta. rewrite digits_all by exact Hf'. cbn [length Nat.eqb]. subst m. rewrite !app_length.
    cbn [length]. f_equal. lia.
Qed.
Lemma strtol_inv lb s v e : ~ In 0%N s -> strtol lb s = (v, e) -> e <> 0 -> chr s e = 0%N ->
  exists z, integer s z /\ v = clamp lb z.
Proof.
  intros Hnul H He Hc. unfold strtol in H.
  destruct (skip_spaces_spec s) as (Ha & Hb & _). set (a := skip_spaces s) in *.
  destruct (match skipn a s with
            | [] => (false, 0, skipn a s)
            | c :: t => if N.eqb c 45 then (true, 1, t) else if N.eqb c 43 then (false, 1, t) else (false, 0, skipn a s)
            end) as [[neg b] r] eqn:Er.
  destruct (digits_spec r 0) as (n & Hd & Hn & Hf & _). rewrite Hd in H.
  destruct (n =? 0) eqn:E0; [injection H as <- <-; easy|]. injection H as <- <-.
  apply Nat.eqb_neq in E0.
  assert (Hsg : exists sg, skipn a s = sg ++ r /\ length sg = b
                 /\ (sg = [] /\ neg = false \/ sg = lit "+" /\ neg = false \/ sg = lit "-" /\ neg = true)).
  { destruct (skipn a s) as [|c t].
    - injection Er as <- <- <-. exists []. auto.
    - destruct (N.eqb_spec c 45) as [->|H1]; [|destruct (N.eqb_spec c 43) as [->|H2]].
      + injection Er as <- <- <-. exists (lit "-"). cbn. auto 10.
      + injection Er as <- <- <-. exists (lit "+"). cbn. auto 10.
      + injection Er as <- <- <-. exists []. cbn. auto. }
  destruct Hsg as (sg & Es & Hb' & Hsg).
  assert (El : length s = a + b + length r).
  { rewrite <- (firstn_skipn a s) at 1. rewrite Es, !app_length, firstn_length. lia. }
  assert (En : n = length r).
  { destruct (Nat.eq_dec n (length r)); auto. exfalso. apply Hnul. rewrite <- Hc. unfold chr. apply nth_In. lia. }
  subst n. rewrite firstn_all in *.
  exists (if neg then (- evald r 0)%Z else evald r 0). split; [|reflexivity].
  rewrite <- (firstn_skipn a s), Es.
  apply (integer_text (firstn a s) sg r (evald r 0)).
  - exact Hb.
  - apply decimal_iff. split; [|auto]. destruct r; [cbn in E0; lia|discriminate].
  - destruct Hsg as [[-> ->]|[[-> ->]|[-> ->]]]; auto.
Qed.

(** * Value policies *)
Lemma streq_iff a b : streq a b = true <-> a = b.
Proof. unfold streq. destruct (list_eq_dec N.eq_dec a b); split; congruence. Qed.
Lemma streq_refl a : streq a a = true.
Proof. now apply streq_iff. Qed.
Lemma casecmp_iff a b : casecmp_eq a b = true <-> same_nocase a b.
Proof. unfold casecmp_eq, same_nocase. apply streq_iff. Qed.
Lemma true_false_nocase a : same_nocase a (lit "true") -> same_nocase a (lit "false") -> False.
Proof. unfold same_nocase. intros -> H. vm_compute in H. discriminate. Qed.

Lemma integer_fun s z z' : integer s z -> integer s z' -> forall lb, clamp lb z = clamp lb z'.
Proof.
  intros H1 H2 lb. apply (strtol_integer lb) in H1 as [H1 _]. apply (strtol_integer lb) in H2 as [H2 _].
  congruence.
Qed.

Section Policy.
Variable lb : Z.
Hypothesis Hlb : (0 < lb)%Z.
Lemma policy_reads p (a : str) x : reads_as lb p a x -> policy_consume lb p (Some a) = Ok (Some x).
Proof.
  intros [s Hs|s Hs|s Hs|s z Hs]; cbn [policy_consume].
  - destruct s; [easy|reflexivity].
  - apply casecmp_iff in Hs. now rewrite Hs.
  - destruct (casecmp_eq s (lit "true")) eqn:E.
    + apply casecmp_iff in E. destruct (true_false_nocase s); auto.
    + apply casecmp_iff in Hs. now rewrite Hs.
  - destruct (strtol_integer lb s z Hs) as [E Hl]. rewrite E.
    replace (length s =? 0) with false by (symmetry; apply Nat.eqb_neq; lia).
    unfold chr. rewrite nth_overflow by lia. cbn [orb negb N.eqb]. now rewrite clamp_squeeze.
Qed.
Lemma policy_consume_cases p (a : str) : ~ In 0%N a ->
  (exists x, policy_consume lb p (Some a) = Ok (Some x) /\ reads_as lb p a x)
  \/ (policy_consume lb p (Some a) = Ok None /\ forall x, ~ reads_as lb p a x).
Proof.
  intros Hn.
  assert (Hcls : policy_consume lb p (Some a) = Ok None -> forall x, ~ reads_as lb p a x).
  { intros E x Hx. apply policy_reads in Hx. congruence. }
  destruct p; cbn [policy_consume] in *.
  - destruct (casecmp_eq a (lit "true")) eqn:E1.
    + left. eexists. split; [reflexivity|]. constructor. now apply casecmp_iff.
    + destruct (casecmp_eq a (lit "false")) eqn:E2.
      * left. eexists. split; [reflexivity|]. constructor. now apply casecmp_iff.
      * right. auto.
  - destruct a as [|c a]; [right; auto|]. left. eexists. split; [reflexivity|]. constructor. discriminate.
  - destruct (strtol lb a) as [v e] eqn:E. destruct (Nat.eqb_spec e 0) as [->|He]; cbn [orb] in *; [right; auto|].
    destruct (N.eqb_spec (chr a e) 0) as [Hc|Hc]; cbn [negb] in *; [|right; auto].
    left. destruct (strtol_inv lb a v e Hn E He Hc) as (z & Hz & ->).
    eexists. split; [reflexivity|]. rewrite clamp_squeeze by exact Hlb. now constructor.
Qed.
End Policy.

Lemma squeeze_id lb z : (32 <= lb)%Z -> int_range z -> squeeze lb z = z.
Proof.
  intros Hl [H1 H2]. assert (2 ^ 31 <= 2 ^ (lb - 1))%Z by (apply Z.pow_le_mono_r; lia).
  unfold squeeze. destruct (Z.ltb_spec z (- 2 ^ (lb - 1))); [lia|].
  destruct (Z.leb_spec (2 ^ (lb - 1)) z); [lia|]. unfold to_int. rewrite Z.mod_small; [lia|].
  change (2 ^ 32)%Z with (2 * 2 ^ 31)%Z. lia.
Qed.

(** * Separators *)
Lemma strchr_some s ch k : strchr s ch = Some k ->
  k < length s /\ s = firstn k s ++ ch :: skipn (S k) s /\ ~ In ch (firstn k s).
Proof.
  revert k; induction s as [|x t IH]; intros k H; cbn [strchr] in H; [discriminate|].
  destruct (N.eqb_spec x ch) as [->|Hx].
  - injection H as <-. cbn. split; [lia|]. split; [reflexivity|tauto].
  - destruct (strchr t ch) as [j|] eqn:E; [|discriminate]. injection H as <-.
    destruct (IH j eq_refl) as (H1 & H2 & H3). change (skipn (S (S j)) (x :: t)) with (skipn (S j) t).
    cbn [firstn length app]. split; [lia|]. split.
    + now rewrite <- H2.
    + cbn [In]. intuition.
Qed.
Lemma strchr_none s ch : strchr s ch = None <-> ~ In ch s.
Proof.
  induction s as [|x t IH]; cbn [strchr]; [cbn; tauto|].
  destruct (N.eqb_spec x ch) as [->|Hx].
  - split; [discriminate|]. intros H. exfalso. apply H. now left.
  - destruct (strchr t ch) as [j|].
    + split; [discriminate|]. intros H. assert (Hn : ~ In ch t) by (cbn in H; tauto). apply IH in Hn. discriminate.
    + cbn. intuition.
Qed.
Lemma strchr_app n ch v : ~ In ch n -> strchr (n ++ ch :: v) ch = Some (length n).
Proof.
  induction n as [|x t IH]; intros H; cbn [app strchr length].
  - now rewrite N.eqb_refl.
  - destruct (N.eqb_spec x ch) as [->|Hx]; [exfalso; apply H; now left|]. rewrite IH; auto. cbn in H. tauto.
Qed.
Lemma strchr_lead p body ch : ~ In ch p ->
  strchr (p ++ body) ch = option_map (fun k => length p + k) (strchr body ch).
Proof.
  induction p as [|x t IH]; intros H; cbn [app strchr length].
  - destruct (strchr body ch); reflexivity.
  - destruct (N.eqb_spec x ch) as [->|Hx]; [exfalso; apply H; now left|]. rewrite IH by (cbn in H; tauto).
    destruct (strchr body ch); reflexivity.
Qed.

(** The name and the attached value, if any, of an option's body. *)
Definition split_body (inline : bool) (body : str) : option (str * str) :=
  match strchr body c_eq with
  | Some k => if inline && (length (skipn (S k) body) =? 0) then None else Some (firstn k body, skipn (S k) body)
  | None => if inline
            then match strchr body c_colon with
                 | Some k => if length (skipn (S k) body) =? 0 then None else Some (firstn k body, skipn (S k) body)
                 | None => None
                 end
            else None
  end.
Lemma len0 {A} (l : list A) : (length l =? 0) = true <-> l = [].
Proof. rewrite Nat.eqb_eq. destruct l; cbn; split; congruence. Qed.
Lemma split_body_iff inline body n v : split_body inline body = Some (n, v) <-> attached inline body n v.
Proof.
  unfold split_body, attached. split.
  - destruct (strchr body c_eq) as [k|] eqn:E.
    + destruct (strchr_some _ _ _ E) as (H1 & H2 & H3).
      destruct (inline && (length (skipn (S k) body) =? 0)) eqn:Ei; [discriminate|]. intros H.
      assert (En : firstn k body = n /\ skipn (S k) body = v) by (split; congruence). clear H. destruct En as [<- <-].
      left. split; [exact H2|]. split; [exact H3|]. intros Hi. rewrite Hi in Ei. cbn [andb] in Ei. intros Hv.
      apply len0 in Hv. congruence.
    + destruct inline; [|discriminate]. destruct (strchr body c_colon) as [k|] eqn:E2; [|discriminate].
      destruct (strchr_some _ _ _ E2) as (H1 & H2 & H3).
      destruct (length (skipn (S k) body) =? 0) eqn:Ei; [discriminate|]. intros H.
      assert (En : firstn k body = n /\ skipn (S k) body = v) by (split; congruence). clear H. destruct En as [<- <-].
      right. split; [reflexivity|]. split; [exact H2|]. apply strchr_none in E. split; [exact E|].
      split; [exact H3|]. intros Hv. apply len0 in Hv. congruence.
  - intros [(-> & Hn & Hv)|(-> & -> & He & Hc & Hv)].
    + rewrite strchr_app by exact Hn. rewrite firstn_app, Nat.sub_diag, firstn_all, app_nil_r.
      replace (skipn (S (length n)) (n ++ c_eq :: v)) with v
        by (rewrite skipn_app, skipn_all2, Nat.sub_succ_l, Nat.sub_diag by lia; reflexivity).
      destruct inline; [|reflexivity]. cbn [andb]. destruct (length v =? 0) eqn:E; [|reflexivity].
      apply len0 in E. exfalso. apply Hv; auto.
    + apply strchr_none in He. rewrite He, strchr_app by exact Hc.
      rewrite firstn_app, Nat.sub_diag, firstn_all, app_nil_r.
      replace (skipn (S (length n)) (n ++ c_colon :: v)) with v
        by (rewrite skipn_app, skipn_all2, Nat.sub_succ_l, Nat.sub_diag by lia; reflexivity).
      destruct (length v =? 0) eqn:E; [|reflexivity]. apply len0 in E. contradiction.
Qed.
Lemma split_body_none inline body : split_body inline body = None <-> (forall n v, ~ attached inline body n v).
Proof.
  split.
  - intros H n v Ha. apply split_body_iff in Ha. congruence.
  - intros H. destruct (split_body inline body) as [[n v]|] eqn:E; [|reflexivity].
    apply split_body_iff in E. now apply H in E.
Qed.
Definition name_of (inline : bool) (body : str) : str :=
  match split_body inline body with Some (n, _) => n | None => body end.
Definition val_of (inline : bool) (body : str) : option str :=
  match split_body inline body with Some (_, v) => Some v | None => None end.
Lemma name_of_prefix inline body : exists r, body = name_of inline body ++ r.
Proof.
  unfold name_of. destruct (split_body inline body) as [[n v]|] eqn:E; [|exists []; now rewrite app_nil_r].
  apply split_body_iff in E. destruct E as [(-> & _)|(_ & -> & _)]; eauto.
Qed.

(** The scanner's separator (offset of '=' or ':' in the whole argument) is that of the body. *)
Definition code_sep (c : cfg) (arg : str) : outcome (option nat) :=
  match (match strchr arg c_eq with None => if inline_values c then strchr arg c_colon else None | Some _ => strchr arg c_eq end) with
  | Some k => if inline_values c
              then do p <- ptr_add arg (k + 1); Ok (if length p =? 0 then None else Some k)
              else Ok (Some k)
  | None => Ok None
  end.
Definition sep_ok (arg : str) (sep : option nat) (v : option str) : Prop :=
  match sep, v with
  | Some p, Some w => p + 1 <= length arg /\ skipn (p + 1) arg = w
  | None, None => True
  | _, _ => False
  end.
Definition len_of (arg : str) (sep : option nat) : nat := match sep with Some k => k | None => length arg end.

Lemma code_sep_ok c p body : ~ In c_eq p -> ~ In c_colon p ->
  exists sep, code_sep c (p ++ body) = Ok sep /\ sep_ok (p ++ body) sep (val_of (inline_values c) body)
    /\ len_of (p ++ body) sep = length p + length (name_of (inline_values c) body).
Proof.
  intros He Hc. unfold code_sep, val_of, name_of, split_body. rewrite !strchr_lead by assumption.
  assert (Hp : forall k, k < length body -> ptr_add (p ++ body) (length p + k + 1) = Ok (skipn (S k) body)).
  { intros k Hk. unfold ptr_add. rewrite app_length.
    replace (length p + k + 1 <=? length p + length body) with true by (symmetry; apply Nat.leb_le; lia).
    rewrite skipn_app, skipn_all2 by lia. cbn [app]. do 2 f_equal. lia. }
  assert (Hs : forall k, k < length body -> skipn (length p + k + 1) (p ++ body) = skipn (S k) body).
  { intros k Hk. rewrite skipn_app, skipn_all2 by lia. cbn [app]. f_equal. lia. }
  destruct (strchr body c_eq) as [k|] eqn:E; cbn [option_map].
  - destruct (strchr_some _ _ _ E) as (H1 & _ & _).
    destruct (inline_values c); cbn [andb].
    + rewrite Hp by lia. cbn [bind]. destruct (length (skipn (S k) body) =? 0).
      * exists None. split; [reflexivity|]. split; [exact I|]. cbn. now rewrite app_length.
      * exists (Some (length p + k)). split; [reflexivity|]. split; [split; [rewrite app_length; lia|apply Hs; lia]|].
        cbn. rewrite firstn_length. lia.
    + exists (Some (length p + k)). split; [reflexivity|]. split; [split; [rewrite app_length; lia|apply Hs; lia]|].
      cbn. rewrite firstn_length. lia.
  - destruct (inline_values c).
    + destruct (strchr body c_colon) as [k|] eqn:E2; cbn [option_map].
      * destruct (strchr_some _ _ _ E2) as (H1 & _ & _). rewrite Hp by lia. cbn [bind].
        destruct (length (skipn (S k) body) =? 0).
        -- exists None. split; [reflexivity|]. split; [exact I|]. cbn. now rewrite app_length.
        -- exists (Some (length p + k)). split; [reflexivity|].
           split; [split; [rewrite app_length; lia|apply Hs; lia]|]. cbn. rewrite firstn_length. lia.
      * exists None. split; [reflexivity|]. split; [exact I|]. cbn. now rewrite app_length.
    + exists None. split; [reflexivity|]. split; [exact I|]. cbn. now rewrite app_length.
Qed.

(** * Lookup *)
Lemma strncmp_eq_iff n a b : length a = n -> n <= length b -> strncmp_eq n a b = true <-> a = firstn n b.
Proof.
  revert a b; induction n as [|n IH]; intros a b Ha Hb; cbn [strncmp_eq firstn].
  - destruct a; [tauto|cbn in Ha; lia].
  - destruct a as [|x a], b as [|y b]; cbn in Ha, Hb; try lia.
    rewrite andb_true_iff, N.eqb_eq, IH by lia. split; [intros [-> ->]; reflexivity|intros H; injection H; auto].
Qed.
Lemma name_matches_iff form s len : len <= length s ->
  name_matches form s len = true <-> form = Some (firstn len s).
Proof.
  intros H. unfold name_matches. destruct form as [n|]; [|split; discriminate].
  rewrite andb_true_iff, Nat.eqb_eq. split.
  - intros [H1 H2]. apply strncmp_eq_iff in H2; auto. now rewrite H2 at 1.
  - intros E. assert (En : n = firstn len s) by congruence. assert (Hl : length n = len) by (rewrite En, firstn_length; lia).
    split; [exact Hl|]. apply strncmp_eq_iff; auto.
Qed.
Lemma find_idx_some f os i : find_idx f os = Some i ->
  exists o, nth_error os i = Some o /\ f o = true /\ forall j o', j < i -> nth_error os j = Some o' -> f o' = false.
Proof.
  revert i; induction os as [|o t IH]; intros i H; cbn [find_idx] in H; [discriminate|].
  destruct (f o) eqn:E.
  - injection H as <-. exists o. split; [reflexivity|]. split; [exact E|]. intros. lia.
  - destruct (find_idx f t) as [k|]; [|discriminate]. injection H as <-.
    destruct (IH k eq_refl) as (o' & H1 & H2 & H3). exists o'. split; [exact H1|]. split; [exact H2|].
    intros [|j] x Hj Hx; [cbn in Hx; congruence|]. cbn in Hx. apply (H3 j); auto; lia.
Qed.
Lemma find_idx_none f os : find_idx f os = None <-> forall o, In o os -> f o = false.
Proof.
  induction os as [|o t IH]; cbn [find_idx].
  - split; [intros _ o []|auto].
  - destruct (f o) eqn:E.
    + split; [discriminate|]. intros H. rewrite (H o) in E; [discriminate|now left].
    + destruct (find_idx f t) as [k|].
      * split; [discriminate|]. intros H. exfalso. assert (Hx : Some k = None); [|discriminate]. apply IH. intros x Hx. apply H. now right.
      * split; [|reflexivity]. intros _ x [<-|Hx]; [exact E|]. now apply IH.
Qed.
Lemma find_idx_ext f g os : (forall o, f o = g o) -> find_idx f os = find_idx g os.
Proof. intros H. induction os as [|o t IH]; cbn [find_idx]; [reflexivity|]. now rewrite H, IH. Qed.

Definition has_form (form : option str) (n : str) : bool := match form with Some m => streq m n | None => false end.
Lemma has_form_iff form n : has_form form n = true <-> form = Some n.
Proof.
  unfold has_form. destruct form as [m|]; [|split; discriminate]. rewrite streq_iff. split; congruence.
Qed.
Definition by_short (c : cfg) (n : str) : option nat := find_idx (fun o => has_form (o_short o) n) (options c).
Definition by_long (c : cfg) (n : str) : option nat := find_idx (fun o => has_form (o_long o) n) (options c).
Lemma name_matches_has form n r : name_matches form (n ++ r) (length n) = has_form form n.
Proof.
  assert (H : name_matches form (n ++ r) (length n) = true <-> has_form form n = true).
  { rewrite name_matches_iff by (rewrite app_length; lia).
    rewrite firstn_app, Nat.sub_diag, firstn_all, app_nil_r. symmetry. apply has_form_iff. }
  destruct (name_matches form (n ++ r) (length n)), (has_form form n); auto; destruct H as [H1 H2]; [now rewrite H1|now rewrite H2].
Qed.
Lemma find_long_by c n r : find_long c (n ++ r) (length n) = by_long c n.
Proof. apply find_idx_ext. intros o. apply name_matches_has. Qed.
Lemma find_short_by c n r : find_short c (n ++ r) (length n) = by_short c n.
Proof. apply find_idx_ext. intros o. apply name_matches_has. Qed.
Lemma find_inline_by c ch : find_inline_short c ch = by_short c [ch].
Proof.
  apply find_idx_ext. intros o. unfold has_form. destruct (o_short o) as [n|]; [|reflexivity].
  assert (H : (length n =? 1) && N.eqb (chr n 0) ch = true <-> streq n [ch] = true).
  { rewrite andb_true_iff, Nat.eqb_eq, N.eqb_eq, streq_iff. split.
    - intros [H1 H2]. destruct n as [|x [|y n]]; cbn in *; try lia. congruence.
    - intros ->. auto. }
  destruct ((length n =? 1) && N.eqb (chr n 0) ch), (streq n [ch]); auto; destruct H as [H1 H2]; [now rewrite H1|now rewrite H2].
Qed.

(** * resolve, normalised *)
Definition no_case (c : cfg) (arg : str) (n : str) (sep : option nat) : outcome (option (nat * option str * option nat)) :=
  match by_long c n with
  | None => Fault NullDeref
  | Some o => do k <- kind_at c o;
              if prefix_no k then Ok (Some (o, Some (lit "false"), sep)) else Ok None
  end.
Definition implied (k : kind) : option str := if prefix_no k then Some (lit "true") else None.

Lemma no_prefix_val : no_prefix = [110; 111; 45]%N. Proof. reflexivity. Qed.
Lemma strncmp_no body : strncmp_eq 5 (c_dash :: c_dash :: body) (lit "--no-") = true <-> exists b, body = no_prefix ++ b.
Proof.
  change (lit "--no-") with [45; 45; 110; 111; 45]%N. cbn [strncmp_eq c_dash]. cbn [N.eqb Pos.eqb andb].
  rewrite no_prefix_val. split.
  - destruct body as [|x [|y [|z b]]]; cbn [strncmp_eq andb]; rewrite ?andb_false_r; try discriminate.
    rewrite !andb_true_iff, !N.eqb_eq. intros (_ & _ & -> & -> & -> & _). exists b. reflexivity.
  - intros [b ->]. cbn. destruct b; reflexivity.
Qed.

(** Names of the two separators never include a separator-free prefix's letters: the name of "no-..." starts so. *)
Lemma name_of_no inline b : exists n, name_of inline (no_prefix ++ b) = no_prefix ++ n /\ n = name_of inline b
  /\ val_of inline (no_prefix ++ b) = val_of inline b.
Proof.
  assert (E : split_body inline (no_prefix ++ b) = option_map (fun '(n, v) => (no_prefix ++ n, v)) (split_body inline b)).
  { unfold split_body. rewrite !strchr_lead by (rewrite no_prefix_val; cbn; unfold c_eq, c_colon; intuition discriminate).
    rewrite no_prefix_val. cbn [length].
    destruct (strchr b c_eq) as [k|]; cbn [option_map].
    - cbn [Nat.add skipn app firstn].
      match goal with |- context [if ?g then _ else _] => destruct g end; reflexivity.
    - destruct inline; [|reflexivity]. destruct (strchr b c_colon) as [k|]; cbn [option_map]; [|reflexivity].
      cbn [Nat.add skipn app firstn].
      match goal with |- context [if ?g then _ else _] => destruct g end; reflexivity. }
  exists (name_of inline b). unfold name_of, val_of. rewrite E.
  destruct (split_body inline b) as [[n v]|]; cbn [option_map]; auto.
Qed.

Lemma resolve_long c body :
  exists sep, sep_ok (c_dash :: c_dash :: body) sep (val_of (inline_values c) body)
  /\ resolve c (c_dash :: c_dash :: body) =
     match by_long c (name_of (inline_values c) body) with
     | Some i => do k <- kind_at c i; Ok (Some (i, implied k, sep))
     | None => if strncmp_eq 5 (c_dash :: c_dash :: body) (lit "--no-")
               then no_case c body (skipn 3 (name_of (inline_values c) body)) sep
               else Ok None
     end.
Proof.
  set (arg := c_dash :: c_dash :: body).
  destruct (code_sep_ok c [c_dash; c_dash] body) as (sep & E & Hs & Hl); [cbn; intuition discriminate..|].
  change ([c_dash; c_dash] ++ body) with arg in *. exists sep. split; [exact Hs|].
  unfold resolve. cbv zeta. unfold code_sep in E. rewrite E. cbn [bind]. fold (len_of arg sep). rewrite Hl.
  change (chr arg 0) with c_dash. change (chr arg 1) with c_dash. rewrite N.eqb_refl. cbn [andb].
  unfold ptr_add at 1. subst arg. cbn [length]. replace (2 <=? S (S (length body))) with true by reflexivity.
  cbn [bind skipn]. unfold size_sub at 1. replace (2 <=? 2 + length (name_of (inline_values c) body)) with true by reflexivity.
  replace (2 + length (name_of (inline_values c) body) - 2) with (length (name_of (inline_values c) body)) by lia.
  cbn [bind]. destruct (name_of_prefix (inline_values c) body) as [r Er].
  rewrite Er at 1. rewrite find_long_by.
  destruct (by_long c (name_of (inline_values c) body)) as [i|] eqn:Eb; [reflexivity|].
  destruct (strncmp_eq 5 (c_dash :: c_dash :: body) (lit "--no-")) eqn:En; [|reflexivity].
  apply strncmp_no in En as [b ->]. destruct (name_of_no (inline_values c) b) as (n & En & Hn & _).
  rewrite En in *. rewrite no_prefix_val in *. cbn [app length skipn] in *.
  unfold ptr_add. cbn [length Nat.leb bind skipn]. unfold size_sub. cbn [length Nat.leb Nat.add Nat.sub bind].
  rewrite Nat.sub_0_r. unfold no_case.
  destruct (name_of_prefix (inline_values c) b) as [r' Er']. rewrite <- Hn in Er'. rewrite Er' at 1. rewrite find_long_by.
  destruct (by_long c n); reflexivity.
Qed.

Lemma resolve_short c p body : p <> c_eq -> p <> c_colon -> (p = c_dash -> chr body 0 <> c_dash) ->
  exists sep, sep_ok (p :: body) sep (val_of (inline_values c) body)
  /\ resolve c (p :: body) =
     match by_short c (name_of (inline_values c) body) with
     | Some i => do k <- kind_at c i; Ok (Some (i, implied k, sep))
     | None => if inline_values c
               then match by_short c [chr body 0] with
                    | Some i => do k <- kind_at c i;
                                Ok (Some (i, implied k, if 1 <? length (name_of true body) then Some 1 else sep))
                    | None => Ok None
                    end
               else Ok None
     end.
Proof.
  intros H1 H2 H3. set (arg := p :: body).
  destruct (code_sep_ok c [p] body) as (sep & E & Hs & Hl); [cbn; intuition congruence..|].
  change ([p] ++ body) with arg in *. exists sep. split; [exact Hs|].
  unfold resolve. cbv zeta. unfold code_sep in E. rewrite E. cbn [bind]. fold (len_of arg sep). rewrite Hl.
  change (chr arg 0) with p. change (chr arg 1) with (chr body 0).
  replace (N.eqb p c_dash && N.eqb (chr body 0) c_dash) with false
    by (symmetry; apply andb_false_iff; destruct (N.eqb_spec p c_dash); [right; apply N.eqb_neq; auto|auto]).
  unfold ptr_add at 1. subst arg. cbn [length Nat.leb bind skipn]. unfold size_sub. cbn [length Nat.leb Nat.add Nat.sub bind].
  rewrite Nat.sub_0_r. destruct (name_of_prefix (inline_values c) body) as [r Er].
  rewrite Er at 1. rewrite find_short_by.
  destruct (by_short c (name_of (inline_values c) body)) as [i|]; [reflexivity|].
  assert (En : strncmp_eq 5 (p :: body) (lit "--no-") = false).
  { change (lit "--no-") with [45; 45; 110; 111; 45]%N. cbn [strncmp_eq]. fold c_dash.
    destruct (N.eqb_spec p c_dash) as [->|]; [|reflexivity]. cbn [andb]. specialize (H3 eq_refl).
    destruct body as [|x body]; [reflexivity|]. cbn [chr nth] in H3. apply N.eqb_neq in H3. rewrite H3. reflexivity. }
  destruct (inline_values c) eqn:Ei.
  - rewrite find_inline_by. destruct (by_short c [chr body 0]) as [i|]; cbn [bind].
    + unfold implied. destruct (kind_at c i) as [k| |]; [|reflexivity..]. cbn [bind].
      replace (2 <? S (length (name_of true body))) with (1 <? length (name_of true body)) by reflexivity. reflexivity.
    + now rewrite En.
  - cbn [bind]. now rewrite En.
Qed.
