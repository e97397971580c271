(** C124-C126: the preprocessor structure of the headers. *)
From Coq Require Import String ZArith.
From Verif Require Import Base PreprocModel HeadersModel PreprocSpec PreprocProofs PreprocFacts PreprocString.
Local Open Scope string_scope.
Local Open Scope list_scope.

(** ** C124 *)
Theorem C124_include_order_partial B hs : environment B -> Forall header hs ->
  match translate B headers hs with
  | Fine s => forall h, header h -> In h hs \/ provided h s <> [] ->
                os_of B <> Windows \/ ~ In h ["am-float.h"; "am-string.h"; "os/am-system-errors.h"] -> as_if_alone B h s
  | Rejected f n => exists h, In h hs /\ translate B headers [h] = Rejected f n
  | Deep | NoFile _ => False
  end.
Proof.
  intros E H. pose proof (units B hs E H) as U. destruct (translate B headers hs) as [s|f n| |] eqn:T; try tauto.
  destruct U as [U1 U2]. intros h Hh Hin [W|C].
  - pose proof (units_not_windows B hs E W H) as V. rewrite T in V. destruct V as [V1 V2].
    assert (A : as_alone B headers order tested_list owners ["KE_WINDOWS"] h s).
    { destruct Hin as [Hin|Hin]; [auto|]. destruct (V2 h (proj1 (header_in h) Hh)) as [[N _]|V]; [contradiction|exact V]. }
    eapply alone_spec; [exact Hh|exact A|]. apply clean_not_windows, header_in, Hh.
  - assert (A : as_alone B headers order tested_list owners [] h s).
    { destruct Hin as [Hin|Hin]; [auto|]. destruct (U2 h (proj1 (header_in h) Hh)) as [[N _]|V]; [contradiction|exact V]. }
    eapply alone_spec; [exact Hh|exact A|]. apply clean_all; [apply header_in, Hh|exact C].
Qed.
(** Since the headers of [hs] can be any, in any number: the order does not matter, nor does including one twice. *)
Theorem C124_any_two_units_partial B hs hs' s s' h : environment B -> Forall header hs -> Forall header hs' ->
  os_of B <> Windows \/ ~ In h ["am-float.h"; "am-string.h"; "os/am-system-errors.h"] ->
  translate B headers hs = Fine s -> translate B headers hs' = Fine s' -> In h hs -> In h hs' -> provided h s = provided h s'.
Proof.
  intros E H H' C T T' I I'. assert (Hh : header h) by (rewrite Forall_forall in H; auto).
  pose proof (C124_include_order_partial B hs E H) as A. pose proof (C124_include_order_partial B hs' E H') as A'.
  rewrite T in A. rewrite T' in A'. destruct (A h Hh (or_introl I) C) as (k & s1 & _ & T1 & P & _).
  destruct (A' h Hh (or_introl I') C) as (k' & s1' & _ & T1' & P' & _). congruence.
Qed.
(** On Windows the workaround of FloatModulo depends on whether some other header came first. *)
Theorem C124_float_refuted B : environment B -> os_of B = Windows ->
  exists s s', translate B headers ["am-float.h"] = Fine s /\ translate B headers ["am-platform.h"; "am-float.h"] = Fine s' /\
    ~ In (Lines "am-float.h" 129 131) (out s) /\ In (Lines "am-float.h" 129 131) (out s').
Proof.
  intros E W.
  assert (D1 : defd B "_include_amtl_float_h_" = false) by (apply defd_no; [exact E|reserved_in "am-float.h"]).
  assert (D2 : defd B "KE_WINDOWS" = false) by (apply defd_no; [exact E|reserved_in "am-platform.h"]).
  assert (R : forall inc s, assoc "_include_amtl_float_h_" (macros s) = None -> assoc "_MSC_VER" (macros s) = None ->
    exists s', process B inc "am-float.h" h_float s = Fine s' /\
      out s' = (out s ++ [Sys "am-float.h" "stdint.h"; Sys "am-float.h" "cfloat"; Sys "am-float.h" "cmath"; Lines "am-float.h" 38 87;
               (if defd B "_MSC_VER" then Lines "am-float.h" 89 89 else Lines "am-float.h" 91 91); Lines "am-float.h" 93 124] ++
               (if is_some (assoc "KE_WINDOWS" (macros s)) then [Lines "am-float.h" 129 131] else []) ++ [Lines "am-float.h" 134 137])%list).
  { intros inc s A1 A2. unfold h_float. rewrite process_if. cbn [cond]. rewrite A1, D1. cbv beta iota delta [negb].
    rewrite process_define, !process_system, process_text, process_if. cbn [cond]. unfold add_item, add_macro.
    cbn [macros onces out assoc String.eqb Ascii.eqb Bool.eqb]. rewrite A2.
    destruct (defd B "_MSC_VER"); rewrite process_text, process_done, process_text, process_if; cbn [cond]; unfold add_item;
      cbn [macros onces out assoc String.eqb Ascii.eqb Bool.eqb]; rewrite D2; destruct (assoc "KE_WINDOWS" (macros s)); cbn [is_some];
      rewrite ?process_text, ?process_done, ?process_text, ?process_done; eexists; (split; [reflexivity|]); unfold add_item; cbn [out];
      rewrite <- !app_assoc; reflexivity. }
  destruct (R (include B headers 255) (PP [] [] []) eq_refl eq_refl) as (s & T & O).
  set (sp := PP (platform_macros B) [] [Lines "am-platform.h" 32 32; Lines "am-platform.h" 95 95]).
  assert (Am : forall m, mem m (cxx_macros ++ arch_macros ++ all_os_macros ++ ["_include_amtl_platform_h_"]) = false ->
    assoc m (macros sp) = None).
  { intros m Hm. cbn [sp macros]. pose proof (platform_has B m) as P. destruct (assoc m (platform_macros B)); [exfalso|reflexivity].
    assert (X : mem m (cxx_macros ++ arch_macros ++ all_os_macros ++ ["_include_amtl_platform_h_"]) = true); [|congruence].
    apply mem_in. rewrite !in_app_iff. destruct P as [P _]. destruct P as [P|[->|[P|P]]]; [discriminate| | | |].
    - left. eapply cxx_in; eauto.
    - right; left. apply arch_in.
    - right; right; left. eapply os_in; eauto.
    - right; right; right. now left. }
  destruct (R (include B headers 255) sp) as (s' & T' & O'); [apply Am; reflexivity|apply Am; reflexivity|].
  exists s, s'. split; [rewrite (one_file B "am-float.h" h_float eq_refl); exact T|]. split.
  { pose proof (alone_platform B E) as P. fold sp in P. unfold translate in P |- *. cbn [includes] in P |- *.
    destruct (include B headers limit "am-platform.h" (PP [] [] [])) as [s1| | |]; try discriminate. injection P as ->.
    assert (Q : include B headers limit "am-float.h" sp = process B (include B headers 255) "am-float.h" h_float sp) by reflexivity.
    rewrite Q, T'. reflexivity. }
  split.
  - rewrite O. cbn. destruct (defd B "_MSC_VER"); intros X; repeat (destruct X as [X|X]; [discriminate|]); exact X.
  - rewrite O'. assert (assoc "KE_WINDOWS" (macros sp) <> None) as A by (apply platform_has; rewrite W; cbn; tauto).
    destruct (assoc "KE_WINDOWS" (macros sp)); [|congruence].
    cbn [is_some]. rewrite !in_app_iff. right; right; left. now left.
Qed.
(** On Windows os/am-system-errors.h calls the Windows API without its header, unless some other header came first. *)
Theorem C124_system_errors_refuted : exists B s s', environment B /\ os_of B = Windows /\
  translate B headers ["os/am-system-errors.h"] = Fine s /\ translate B headers ["am-platform.h"; "os/am-system-errors.h"] = Fine s' /\
  (forall f, ~ In (Sys f "Windows.h") (out s)) /\ In (Lines "os/am-system-errors.h" 46 50) (out s) /\
  In (Sys "os/am-system-errors.h" "Windows.h") (out s').
Proof.
  exists msvc. assert (H : forall r, (match r with Fine _ => true | _ => false end) = true -> exists s, r = Fine s) by (intros []; try discriminate; eauto).
  destruct (H (translate msvc headers ["os/am-system-errors.h"])) as [s T]; [vm_compute; reflexivity|].
  destruct (H (translate msvc headers ["am-platform.h"; "os/am-system-errors.h"])) as [s' T']; [vm_compute; reflexivity|].
  exists s, s'. split; [apply env_just; vm_compute; reflexivity|]. split; [vm_compute; reflexivity|]. split; [exact T|]. split; [exact T'|].
  vm_compute in T. vm_compute in T'. injection T as <-. injection T' as <-. split; [|split].
  - intros f X. cbn in X. repeat (destruct X as [X|X]; [discriminate|]). exact X.
  - cbn. tauto.
  - cbn. tauto.
Qed.

(** ** C125 *)
Theorem C125_platform_macros B hs s : environment B -> Forall header hs -> translate B headers hs = Fine s ->
  if existsb (from_file "am-platform.h") (out s)
  then (forall m, In m all_os_macros -> has B s m <-> In m (os_macros (os_of B))) /\
       (forall m, In m arch_macros -> has B s m <-> m = arch_macro B) /\
       (forall m, In m cxx_macros -> has B s m <-> In m (cxx_macro (cxx_of B)))
  else forall m, In m (all_os_macros ++ arch_macros ++ cxx_macros) -> ~ has B s m.
Proof.
  intros E H T. pose proof (units B hs E H) as U. rewrite T in U. destruct U as [_ U].
  specialize (U "am-platform.h" (proj1 (header_in "am-platform.h") (ex_intro _ h_platform eq_refl))).
  assert (V : forall m, In m (all_os_macros ++ arch_macros ++ cxx_macros) -> has B s m <-> assoc m (macros s) <> None).
  { intros m I. destruct (platform_owned m I) as [R _]. unfold has, value. rewrite (E m R). destruct (assoc m (macros s)); split; congruence. }
  assert (P : items_in "am-platform.h" s = [] <-> existsb (from_file "am-platform.h") (out s) = false).
  { unfold items_in, provided. induction (out s) as [|i l IH]; cbn [filter existsb]; [tauto|].
    destruct (from_file "am-platform.h" i); cbn [orb]; [split; discriminate|exact IH]. }
  assert (L : forall m, (In m all_os_macros \/ In m arch_macros \/ In m cxx_macros) -> In m (all_os_macros ++ arch_macros ++ cxx_macros))
    by (intros m I; rewrite !in_app_iff; exact I).
  destruct U as [[N M]|(s1 & T1 & I & M)].
  - rewrite (proj1 P N). intros m Hm. rewrite (V m Hm), (M m); [congruence|apply platform_owned, Hm].
  - pose proof (alone_platform B E) as A. rewrite A in T1. injection T1 as <-. cbn [macros] in M.
    specialize (I eq_refl). destruct (existsb (from_file "am-platform.h") (out s)); [|rewrite (proj2 P eq_refl) in I; discriminate].
    destruct (platform_parts B) as (P1 & P2 & P3).
    split; [|split]; intros m Hm; (rewrite V by auto); (rewrite (M m) by (apply platform_owned; auto)); auto.
Qed.
(** In particular Windows and POSIX code never meet. *)
Theorem C125_one_family B hs s : environment B -> Forall header hs -> translate B headers hs = Fine s ->
  ~ (has B s "KE_WINDOWS" /\ has B s "KE_POSIX").
Proof.
  intros E H T [W P]. pose proof (C125_platform_macros B hs s E H T) as C.
  destruct (existsb _ (out s)); [|apply (C "KE_WINDOWS"); [cbn; tauto|exact W]].
  destruct C as [C _]. apply C in W; [|cbn; tauto]. apply C in P; [|cbn; tauto].
  destruct (os_of B); cbn in W, P; intuition discriminate.
Qed.

(** ** C126 *)
(** Supported compilers on known systems get through every choice of headers; no other compiler gets through am-cxx.h, which
    marks its end by KE_LINKONCE, and on no other system does am-string.h contribute anything. *)
Theorem C126_compilers_partial B hs : environment B -> Forall header hs ->
  match translate B headers hs with
  | Fine s => (supported B (version B "__clang_major__") (version B "__clang_minor__") = true \/ ~ has B s "KE_LINKONCE") /\
              (os_of B <> OtherOS \/ provided "am-string.h" s = [])
  | Rejected f _ => supported B (version B "__clang_major__") (version B "__clang_minor__") = false /\ f = "am-cxx.h" \/
                    os_of B = OtherOS /\ f = "am-string.h"
  | Deep | NoFile _ => False
  end.
Proof.
  intros E H. pose proof (units B hs E H) as U. pose proof (alone_cxx B E) as A. pose proof (alone_string B E _ eq_refl) as S.
  destruct (translate B headers hs) as [s|f n| |] eqn:T; try tauto.
  - split.
    + destruct (supported B _ _); [now left|right]. destruct A as [n A].
      destruct U as [_ U]. specialize (U "am-cxx.h" (proj1 (header_in "am-cxx.h") (ex_intro _ h_cxx eq_refl))).
      destruct U as [[_ M]|(s1 & T1 & _)]; [|congruence].
      assert (R : reserved "KE_LINKONCE") by (reserved_in "am-cxx.h").
      unfold has, value. rewrite (E _ R), (M "KE_LINKONCE"); [congruence|]. eapply owned; [reflexivity| |exact R].
      apply mem_in. vm_compute. reflexivity.
    + destruct U as [_ U]. specialize (U "am-string.h" (proj1 (header_in "am-string.h") (ex_intro _ h_string eq_refl))).
      destruct U as [[I _]|(s1 & T1 & _)]; [right; exact I|left]. intros O. rewrite O in S.
      unfold translate in T1. cbn [includes] in T1. unfold canon, init in S. destruct S as [[y S]|S]; rewrite S in T1; discriminate.
  - destruct U as [_ C]. pose proof C as C'. unfold canon in C. pose proof (rejected_from _ _ _ _ _ _ _ C) as (k & Hk & St).
    assert (Hf : In f order) by (apply header_in; exists k; exact Hk).
    assert (F : forallb (fun f => match headers f with
       | Some k => negb (stops k) || String.eqb f "am-cxx.h" || String.eqb f "am-string.h" | None => true end) order = true)
      by (vm_compute; reflexivity).
    rewrite forallb_forall in F. specialize (F f Hf). rewrite Hk, St in F. cbn [negb orb] in F. apply orb_true_iff in F as [F|F];
      apply String.eqb_eq in F; subst f.
    + left. split; [|reflexivity]. destruct (supported B _ _); [|reflexivity]. destruct A as (s & A & _).
      unfold translate in A. cbn [includes] in A. unfold init in C. rewrite C in A. discriminate.
    + right. split; [|reflexivity]. rewrite C' in S. destruct S as [[y S]|S]; [discriminate|].
      destruct (os_of B); try reflexivity; destruct S; discriminate.
Qed.
Theorem C126_rejected B hs : environment B -> Forall header hs -> In "am-cxx.h" hs ->
  supported B (version B "__clang_major__") (version B "__clang_minor__") = false ->
  exists f n, translate B headers hs = Rejected f n.
Proof.
  intros E H I S. pose proof (units B hs E H) as U. pose proof (C126_compilers_partial B hs E H) as C. pose proof (alone_cxx B E) as A.
  rewrite S in A. destruct A as [n A]. destruct (translate B headers hs) as [s|f m| |]; try tauto.
  - destruct U as [U _]. destruct (U _ I) as (s1 & T1 & _). congruence.
  - eauto.
Qed.
(** Apple's clang 4.0 is clang 3.1: too old, but not rejected, and KE_CLANG_MAJOR is 4 instead of 3. *)
Theorem C126_apple_refuted : exists B s, environment B /\ B "__apple_build_version__" <> None /\
  let (major, minor) := apple_release (version B "__clang_major__") (version B "__clang_minor__") in
  supported B major minor = false /\ translate B headers ["am-cxx.h"] = Fine s /\ value B s "KE_CLANG_MAJOR" <> Some major.
Proof.
  exists apple_clang_4. eexists. split; [apply env_just; vm_compute; reflexivity|]. split; [discriminate|].
  split; [reflexivity|]. split; [vm_compute; reflexivity|]. vm_compute. discriminate.
Qed.

(** ** Concrete cases *)
Example C124_C126_gcc : environment gcc_linux /\ os_of gcc_linux = Linux /\ supported gcc_linux 0 0 = true /\
  exists s, translate gcc_linux headers ["am-float.h"; "os/am-shared-library.h"; "am-hashmap.h"; "am-float.h"] = Fine s /\
    provided "am-float.h" s <> [] /\ provided "am-platform.h" s <> [] /\ ~ In (Lines "am-float.h" 129 131) (out s).
Proof.
  split; [apply env_just; vm_compute; reflexivity|]. split; [reflexivity|]. split; [reflexivity|]. eexists.
  split; [vm_compute; reflexivity|]. split; [vm_compute; discriminate|]. split; [vm_compute; discriminate|].
  intros X. vm_compute in X. repeat (destruct X as [X|X]; [discriminate|]). exact X.
Qed.
Example C124_C126_msvc : environment msvc /\ os_of msvc = Windows /\ supported msvc 0 0 = true /\
  exists s, translate msvc headers ["os/am-path.h"; "am-thread.h"] = Fine s /\ has msvc s "KE_WINDOWS" /\ has msvc s "KE_ARCH_X64" /\
    has msvc s "KE_CXX_MSVC" /\ has msvc s "KE_LINKONCE".
Proof.
  split; [apply env_just; vm_compute; reflexivity|]. split; [reflexivity|]. split; [reflexivity|]. eexists.
  split; [vm_compute; reflexivity|]. unfold has. repeat split; vm_compute; discriminate.
Qed.
(** GCC 4.8 is too old. *)
Example C126_old_gcc : let B := just [("__linux__", 1%Z); ("__GNUC__", 4%Z); ("__GNUC_MINOR__", 8%Z)] in
  environment B /\ supported B 0 0 = false /\ translate B headers ["am-vector.h"; "am-string.h"] = Rejected "am-cxx.h" 79.
Proof. split; [apply env_just; vm_compute; reflexivity|]. split; vm_compute; reflexivity. Qed.

Print Assumptions C124_include_order_partial.
Print Assumptions C124_any_two_units_partial.
Print Assumptions C124_float_refuted.
Print Assumptions C124_system_errors_refuted.
Print Assumptions C125_platform_macros.
Print Assumptions C125_one_family.
Print Assumptions C126_compilers_partial.
Print Assumptions C126_rejected.
Print Assumptions C126_apple_refuted.
