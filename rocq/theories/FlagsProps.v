(** Property theorem C66: am-flags.h, am-enum.h. *)
From Verif Require Import Base FlagsModel FlagsSpec.
Local Open Scope Z_scope.

Lemma convert_mod sg w z : 0 < w -> convert sg w z mod 2 ^ w = z mod 2 ^ w.
Proof.
  intros Hw. unfold convert. assert (0 < 2 ^ w) by (apply Z.pow_pos_nonneg; lia).
  destruct sg; [|now rewrite Z.mod_mod by lia].
  rewrite <- (Zminus_mod_idemp_l (((z + 2 ^ (w - 1)) mod 2 ^ w))). rewrite Z.mod_mod by lia.
  rewrite Zminus_mod_idemp_l. f_equal. lia.
Qed.
Lemma convert_bits sg w z i : 0 <= i < w -> Z.testbit (convert sg w z) i = Z.testbit z i.
Proof.
  intros Hi. rewrite <- (Z.mod_pow2_bits_low (convert sg w z) w i) by lia.
  rewrite convert_mod by lia. now rewrite Z.mod_pow2_bits_low by lia.
Qed.
Lemma convert_in sg w z : 0 < w -> in_type sg w (convert sg w z).
Proof.
  intros Hw. unfold in_type, convert. assert (0 < 2 ^ w) by (apply Z.pow_pos_nonneg; lia).
  destruct sg; [|apply Z.mod_pos_bound; lia].
  assert (2 ^ w = 2 * 2 ^ (w - 1)) by (rewrite <- Z.pow_succ_r by lia; f_equal; lia).
  pose proof (Z.mod_pos_bound (z + 2 ^ (w - 1)) (2 ^ w)). lia.
Qed.
Lemma convert_id sg w z : 0 < w -> in_type sg w z -> convert sg w z = z.
Proof.
  intros Hw Hi. unfold in_type, convert in *. destruct sg; [|now apply Z.mod_small].
  assert (2 ^ w = 2 * 2 ^ (w - 1)) by (rewrite <- Z.pow_succ_r by lia; f_equal; lia).
  rewrite Z.mod_small by lia. lia.
Qed.
Lemma in_type_ext sg w a b : 0 < w -> in_type sg w a -> in_type sg w b ->
  (forall i, 0 <= i < w -> Z.testbit a i = Z.testbit b i) -> a = b.
Proof.
  intros Hw Ha Hb He. assert (0 < 2 ^ w) by (apply Z.pow_pos_nonneg; lia).
  assert (Hm : a mod 2 ^ w = b mod 2 ^ w).
  { apply Z.bits_inj'. intros i Hi. destruct (Z.lt_ge_cases i w).
    - rewrite !Z.mod_pow2_bits_low by lia. apply He; lia.
    - rewrite !Z.mod_pow2_bits_high by lia. reflexivity. }
  rewrite <- (convert_id sg w a Hw Ha), <- (convert_id sg w b Hw Hb). unfold convert.
  destruct sg; [|exact Hm]. f_equal. rewrite <- (Zplus_mod_idemp_l a), <- (Zplus_mod_idemp_l b). now rewrite Hm.
Qed.
Lemma cast_arith_bits sg w z i : 0 < w -> 0 <= i < w ->
  Z.testbit (cast sg w (arith sg w z)) i = Z.testbit z i.
Proof. intros. unfold cast, arith, pw. rewrite !convert_bits; auto; lia. Qed.
Lemma arith_bits sg w z i : 0 <= i < w -> Z.testbit (arith sg w z) i = Z.testbit z i.
Proof. intros. unfold arith, pw. rewrite !convert_bits; auto; lia. Qed.

(** Every operator result is a value of the enum's type and has exactly the members set algebra gives, for every
    width and signedness of the underlying type. *)
Theorem C66_flags_operators : forall sg w o a b,
  0 < w -> in_type sg w a -> in_type sg w b ->
  in_type sg w (f_op sg w o a b)
  /\ forall i, 0 <= i < w -> member (f_op sg w o a b) i = set_op o (member a i) (member b i).
Proof.
  intros sg w o a b Hw Ha Hb. split.
  - destruct o; apply convert_in; lia.
  - intros i Hi. unfold member. destruct o; cbn [f_op set_op];
      unfold f_plus, f_minus, f_or, f_and, f_xor; rewrite cast_arith_bits by lia;
      rewrite ?Z.lor_spec, ?Z.land_spec, ?Z.lxor_spec; auto.
    rewrite arith_bits by lia. rewrite Z.lxor_spec.
    now destruct (Z.testbit a i), (Z.testbit b i).
Qed.
Print Assumptions C66_flags_operators.

(** Any sequence of compound assignments acts member by member. *)
Theorem C66_flags_compound : forall sg w l a,
  0 < w -> in_type sg w a -> Forall (fun ob => in_type sg w (snd ob)) l ->
  in_type sg w (f_program sg w a l)
  /\ forall i, 0 <= i < w ->
     member (f_program sg w a l) i = set_program (member a i) (map (fun ob => (fst ob, member (snd ob) i)) l).
Proof.
  intros sg w l. induction l as [|[o b] l IH]; intros a Hw Ha Hl; cbn [f_program].
  - split; auto.
  - inversion Hl as [|? ? Hb Hl']; subst. cbn [snd] in Hb.
    destruct (C66_flags_operators sg w o a b Hw Ha Hb) as [H1 H2].
    destruct (IH (f_op sg w o a b) Hw H1 Hl') as [H3 H4]. split; [exact H3|].
    intros i Hi. unfold f_assign_op. rewrite H4 by exact Hi. rewrite H2 by exact Hi. reflexivity.
Qed.
Print Assumptions C66_flags_compound.

(** Tests: bool/!/==/!= are non-emptiness, emptiness and extensional (in)equality. *)
Theorem C66_flags_tests : forall sg w a b,
  0 < w -> in_type sg w a -> in_type sg w b ->
  (f_not sg w a = true <-> forall i, 0 <= i < w -> member a i = false)
  /\ f_bool sg w a = negb (f_not sg w a)
  /\ (f_eq a b = true <-> forall i, 0 <= i < w -> member a i = member b i)
  /\ f_ne a b = negb (f_eq a b)
  /\ (forall i, 0 <= i < w -> member (f_empty sg w) i = false).
Proof.
  intros sg w a b Hw Ha Hb.
  assert (Hz : in_type sg w 0).
  { unfold in_type. assert (0 < 2 ^ w) by (apply Z.pow_pos_nonneg; lia).
    assert (0 < 2 ^ (w - 1)) by (apply Z.pow_pos_nonneg; lia). destruct sg; lia. }
  assert (Hc : cast sg w 0 = 0) by (now apply convert_id).
  unfold f_not, f_bool, f_eq, f_ne, f_empty, member. rewrite Hc. split; [|split; [|split; [|split]]]; auto.
  - rewrite Z.eqb_eq. split; [intros ->; intros; apply Z.testbit_0_l|].
    intros H. apply (in_type_ext sg w); auto. intros i Hi. rewrite H by auto. now rewrite Z.testbit_0_l.
  - rewrite Z.eqb_eq. split; [intros ->; auto|]. intros H. now apply (in_type_ext sg w).
  - intros. apply Z.testbit_0_l.
Qed.
Print Assumptions C66_flags_tests.

(** KE_DEFINE_ENUM_OPERATORS: |, &, ^ likewise; ~ is complement within the type's width; ! is emptiness. *)
Theorem C66_enum_operators : forall sg w a b,
  0 < w -> in_type sg w a -> in_type sg w b ->
  (in_type sg w (e_or sg w a b) /\ in_type sg w (e_and sg w a b) /\ in_type sg w (e_xor sg w a b)
   /\ in_type sg w (e_compl sg w a))
  /\ (forall i, 0 <= i < w ->
      member (e_or sg w a b) i = member a i || member b i
      /\ member (e_and sg w a b) i = member a i && member b i
      /\ member (e_xor sg w a b) i = xorb (member a i) (member b i)
      /\ member (e_compl sg w a) i = negb (member a i))
  /\ (e_not a = true <-> forall i, 0 <= i < w -> member a i = false).
Proof.
  intros sg w a b Hw Ha Hb. split; [|split].
  - repeat split; apply convert_in; lia.
  - intros i Hi. unfold member, e_or, e_and, e_xor, e_compl. rewrite !cast_arith_bits by lia.
    rewrite Z.lor_spec, Z.land_spec, Z.lxor_spec, Z.lnot_spec by lia. auto.
  - destruct (C66_flags_tests sg w a a Hw Ha Ha) as (H & _). unfold f_not in H.
    replace (cast sg w 0) with 0 in H; [exact H|]. symmetry. apply convert_id; auto.
    unfold in_type. assert (0 < 2 ^ w) by (apply Z.pow_pos_nonneg; lia).
    assert (0 < 2 ^ (w - 1)) by (apply Z.pow_pos_nonneg; lia). destruct sg; lia.
Qed.
Print Assumptions C66_enum_operators.

(** KE_DEFINE_ENUM_COMPARATORS(E, Type) compares exactly when every enum value fits Type... *)
Theorem C66_enum_comparators : forall tsg tw a r,
  0 < tw -> in_type tsg tw a ->
  (e_cmp_eq tsg tw a r = true <-> a = r) /\ e_cmp_ne tsg tw a r = negb (e_cmp_eq tsg tw a r).
Proof.
  intros. unfold e_cmp_eq, e_cmp_ne. rewrite convert_id by auto. split; auto. apply Z.eqb_eq.
Qed.
Print Assumptions C66_enum_comparators.
(** ... and for every value that does not fit, it equates it with a different integer. *)
Theorem C66_enum_comparators_narrow : forall tsg tw a,
  0 < tw -> ~ in_type tsg tw a -> exists r, r <> a /\ in_type tsg tw r /\ e_cmp_eq tsg tw a r = true.
Proof.
  intros tsg tw a Hw Ha. exists (convert tsg tw a). split; [|split].
  - intros E. apply Ha. rewrite <- E. now apply convert_in.
  - now apply convert_in.
  - apply Z.eqb_refl.
Qed.
Print Assumptions C66_enum_comparators_narrow.

Example C66_nonvacuous :
  in_type false 8 200 /\ in_type true 32 (-5) /\ f_minus false 8 200 8 = 192 /\ e_compl false 8 200 = 55
  /\ e_compl true 32 (-5) = 4 /\ f_minus true 32 (-1) 1 = -2.
Proof. repeat split; vm_compute; congruence. Qed.
