(** The check of PreprocProofs applied to the headers of amtl. *)
From Coq Require Import String ZArith.
From Verif Require Import Base PreprocModel HeadersModel PreprocSpec PreprocProofs.
Local Open Scope string_scope.
Local Open Scope list_scope.

(** All headers, included ones before those that include them. *)
Definition order : list string :=
  ["am-platform.h"; "am-cxx.h"; "am-allocator-policies.h"; "am-arithmetic.h"; "am-assert.h"; "am-bits.h";
   "am-deque.h"; "am-enum.h"; "am-fixedarray.h"; "am-flags.h"; "am-float.h"; "am-function.h"; "am-hashtable.h";
   "am-hashmap.h"; "am-hashset.h"; "am-inlinelist.h"; "am-linking.h"; "am-storagebuffer.h"; "am-maybe.h";
   "am-mutex.h"; "am-priority-queue.h"; "am-raii.h"; "am-refcounting.h"; "am-refcounting-threadsafe.h";
   "am-vector.h"; "am-string.h"; "am-thread.h"; "am-utility.h"; "am-threadlocal.h"; "am-time.h"; "am-unused.h";
   "experimental/am-argparser.h"; "os/am-fsutil-posix.h"; "os/am-fsutil-windows.h"; "os/am-fsutil.h";
   "os/am-path.h"; "os/am-system-errors.h"; "os/am-shared-library.h"].
Definition exempt (m : string) : bool := mem m ["WIN32_LEAN_AND_MEAN"; "__STDC_FORMAT_MACROS"].
Definition owners : list (string * string) := Eval vm_compute in
  flat_map (fun f => map (fun m => (m, f)) (filter (fun m => negb (exempt m)) (defines (code_of headers f)))) order.
Definition tested_list : list string := Eval vm_compute in
  nodup string_dec (flat_map (fun f => tests (code_of headers f)) order ++ map fst owners).

(** Conditions made of defined(...) only. *)
Section Eval.
Variable B : predefined.
Fixpoint cond (s : pp) (e : expr) : bool :=
  match e with
  | EDefined m => match assoc m (macros s) with Some _ => true | None => defd B m end
  | ENot a => negb (cond s a)
  | EAnd a b => cond s a && cond s b
  | EOr a b => cond s a || cond s b
  | e => negb (eval B s e =? 0)%Z
  end.
Lemma cond_ok s e : (eval B s e =? 0)%Z = negb (cond s e).
Proof.
  induction e; cbn [cond eval]; rewrite ?negb_involutive; try reflexivity.
  - unfold value, defd. destruct (assoc m (macros s)); [reflexivity|]. destruct (B m); reflexivity.
  - rewrite IHe. destruct (cond s e); reflexivity.
  - rewrite IHe1, IHe2. destruct (cond s e1), (cond s e2); reflexivity.
  - rewrite IHe1, IHe2. destruct (cond s e1), (cond s e2); reflexivity.
Qed.
Lemma process_if inc f c t e k s :
  process B inc f (If c t e k) s =
  match process B inc f (if cond s c then t else e) s with Fine s => process B inc f k s | r => r end.
Proof. cbn [process]. rewrite cond_ok. destruct (cond s c); reflexivity. Qed.

Lemma process_split inc f c t e k s : process B inc f (If c t e k) s =
  match process B inc f (If c t e Done) s with Fine s => process B inc f k s | r => r end.
Proof. cbn [process]. now destruct (process B inc f (if (eval B s c =? 0)%Z then e else t) s). Qed.
Lemma process_text inc f a b k s : process B inc f (Text a b k) s = process B inc f k (add_item s (Lines f a b)).
Proof. reflexivity. Qed.
Lemma process_system inc f g k s : process B inc f (System g k) s = process B inc f k (add_item s (Sys f g)).
Proof. reflexivity. Qed.
Lemma process_define inc f m z k s : process B inc f (Define m (ENum z) k) s = process B inc f k (add_macro s m z).
Proof. reflexivity. Qed.
Lemma process_done inc f s : process B inc f Done s = Fine s.
Proof. reflexivity. Qed.

Definition platform_macros : list (string * Z) :=
  map (fun m => (m, 1%Z))
    (rev (cxx_macro (cxx_of B)) ++ [arch_macro B] ++ rev (os_macros (os_of B)) ++ ["_include_amtl_platform_h_"]).
Hypothesis E : environment B.
Lemma defd_no m : reserved m -> defd B m = false.
Proof. intros H. unfold defd. now rewrite (E m H). Qed.
End Eval.
Lemma reserved_by f k m : headers f = Some k -> In m (defined_by k) -> exempt m = false -> reserved m.
Proof.
  intros H I X. split; [eauto|]. unfold exempt, mem in X. cbn [existsb] in X.
  destruct (String.eqb_spec m "WIN32_LEAN_AND_MEAN"); [discriminate|].
  destruct (String.eqb_spec m "__STDC_FORMAT_MACROS"); [discriminate|]. auto.
Qed.
Ltac reserved_in f := eapply (reserved_by f); [reflexivity|apply mem_in; vm_compute; reflexivity|reflexivity].

Lemma one_file B f k : headers f = Some k -> translate B headers [f] = process B (include B headers 255) f k (PP [] [] []).
Proof.
  intros H. unfold translate. cbn [includes]. change limit with (S 255). cbn [include]. cbn [onces existsb]. rewrite H.
  now destruct (process B _ f k _).
Qed.
Ltac steps := repeat (first [rewrite process_done | rewrite process_define | rewrite process_text | rewrite process_system];
   unfold add_macro, add_item; cbn [macros onces out app]; cbv beta iota).
Ltac branch := rewrite process_if; cbn [cond macros assoc String.eqb Ascii.eqb Bool.eqb].
(** Names tested by am-platform.h after the operating system. *)
Definition later : list string :=
  ["__x86_64"; "__x86_64__"; "__amd64__"; "__amd64"; "_MSC_VER"; "_M_X64"; "__i686"; "__i686__"; "__i386"; "__i386__"; "i386";
   "_M_IX86"; "__aarch64__"; "_M_ARM64"; "__arm__"; "_M_ARM"; "__clang__"; "__GNUC__"; "KE_CXX_CLANG"; "KE_CXX_GCC"].
Definition none_of (l : list string) (ms : list (string * Z)) : Prop := forall m, In m l -> assoc m ms = None.
Lemma none_check l ms : forallb (fun m => match assoc m ms with None => true | Some _ => false end) l = true -> none_of l ms.
Proof. intros H m I. rewrite forallb_forall in H. specialize (H m I). destruct (assoc m ms); [discriminate|reflexivity]. Qed.
Ltac use N := repeat (rewrite N by (unfold later; cbn; tauto)).
Definition os_part (k : code) : code :=
  match h_platform with If _ (Define _ _ (Text _ _ (If c t e (If c2 t2 e2 _)))) _ _ => If c t e (If c2 t2 e2 k) | _ => Done end.
Definition arch_part (k : code) : code :=
  match h_platform with If _ (Define _ _ (Text _ _ (If _ _ _ (If _ _ _ (If c t e _))))) _ _ => If c t e k | _ => Done end.
Definition cxx_part (k : code) : code :=
  match h_platform with
  | If _ (Define _ _ (Text _ _ (If _ _ _ (If _ _ _ (If _ _ _ (If c t e (If c2 t2 e2 _))))))) _ _ => If c t e (If c2 t2 e2 k)
  | _ => Done
  end.
Definition ones (l : list string) : list (string * Z) := map (fun m => (m, 1%Z)) l.
Lemma run_os B inc f k o i : defd B "KE_BSD" = false ->
  process B inc f (os_part k) (PP [("_include_amtl_platform_h_", 1%Z)] o i) =
  process B inc f k (PP (ones (rev (os_macros (os_of B)) ++ ["_include_amtl_platform_h_"])) o i).
Proof.
  intros D2. cbn [os_part h_platform]. unfold os_of.
  branch. destruct (defd B "__EMSCRIPTEN__"); [|branch; destruct (defd B "__NetBSD__"); [|branch; destruct (defd B "__FreeBSD__"); [|
    branch; destruct (defd B "__OpenBSD__"); [|branch; destruct (defd B "__APPLE__"); [|branch; destruct (defd B "__MACH__"); [|
    branch; destruct (defd B "_WIN32"); [|branch; destruct (defd B "__linux__"); [|branch; destruct (defd B "__sun__")]]]]]]]].
  all: cbv beta iota; steps; cbn [os_macros rev app].
  all: branch; try rewrite D2; cbv beta iota; steps; reflexivity.
Qed.
Lemma run_arch B inc f k ms o i : none_of later ms ->
  process B inc f (arch_part k) (PP ms o i) = process B inc f k (PP ((arch_macro B, 1%Z) :: ms) o i).
Proof.
  intros N. cbn [arch_part h_platform]. unfold arch_macro, any. cbn [existsb]. rewrite ?orb_false_r, ?orb_assoc.
  Ltac br N := rewrite process_if; cbn [cond macros]; use N.
  br N. match goal with |- context [if ?c then "KE_ARCH_X64" else _] => destruct c end;
    [|br N; match goal with |- context [if ?c then "KE_ARCH_X86" else _] => destruct c end;
      [|br N; match goal with |- context [if ?c then "KE_ARCH_ARM64" else _] => destruct c end;
        [|br N; match goal with |- context [if ?c then "KE_ARCH_ARM" else _] => destruct c end]]].
  all: cbv beta iota; steps; reflexivity.
Qed.
Lemma run_cxx B inc f k ms o i : none_of later ms -> defd B "KE_CXX_CLANG" = false -> defd B "KE_CXX_GCC" = false ->
  process B inc f (cxx_part k) (PP ms o i) = process B inc f k (PP (ones (rev (cxx_macro (cxx_of B))) ++ ms) o i).
Proof.
  intros N D3 D4. cbn [cxx_part h_platform]. unfold cxx_of.
  br N. destruct (defd B "__clang__"); [|br N; destruct (defd B "__GNUC__"); [|br N; destruct (defd B "_MSC_VER")]].
  all: cbv beta iota; steps; cbn [cxx_macro rev app map ones].
  all: rewrite process_if; cbn [cond macros assoc String.eqb Ascii.eqb Bool.eqb]; use N; rewrite ?D3, ?D4; cbv beta iota delta [orb]; steps.
  all: reflexivity.
Qed.
Lemma no_later B : none_of later ((arch_macro B, 1%Z) :: ones (rev (os_macros (os_of B)) ++ ["_include_amtl_platform_h_"])) /\
  none_of later (ones (rev (os_macros (os_of B)) ++ ["_include_amtl_platform_h_"])).
Proof.
  unfold arch_macro. generalize (os_of B). intros o. split; [|apply none_check; destruct o; vm_compute; reflexivity].
  repeat match goal with |- context [if ?c then _ else _] => destruct c end; apply none_check; destruct o; vm_compute; reflexivity.
Qed.
Lemma alone_platform B : environment B ->
  translate B headers ["am-platform.h"] =
    Fine (PP (platform_macros B) [] [Lines "am-platform.h" 32 32; Lines "am-platform.h" 95 95]).
Proof.
  intros E. rewrite (one_file B "am-platform.h" h_platform eq_refl). set (inc := include B headers 255).
  assert (defd B "_include_amtl_platform_h_" = false) as D1 by (apply defd_no; [exact E|reserved_in "am-platform.h"]).
  assert (defd B "KE_BSD" = false) as D2 by (apply defd_no; [exact E|reserved_in "am-platform.h"]).
  assert (defd B "KE_CXX_CLANG" = false) as D3 by (apply defd_no; [exact E|reserved_in "am-platform.h"]).
  assert (defd B "KE_CXX_GCC" = false) as D4 by (apply defd_no; [exact E|reserved_in "am-platform.h"]).
  change h_platform with (If (ENot (EDefined "_include_amtl_platform_h_")) (Define "_include_amtl_platform_h_" (ENum 1)
    (Text 32 32 (os_part (arch_part (cxx_part (Text 95 95 Done)))))) Done Done).
  rewrite process_if. cbn [cond assoc macros]. rewrite D1. cbv beta iota delta [negb]. steps.
  destruct (no_later B) as [N1 N2]. rewrite run_os, run_arch, run_cxx by assumption. steps.
  unfold platform_macros, ones. rewrite !map_app. reflexivity.
Qed.

(** Code that only writes text and defines macros. *)
Fixpoint plain (k : code) : bool :=
  match k with
  | Done => true
  | Text _ _ k | Define _ _ k | System _ k => plain k
  | If _ t e k => plain t && plain e && plain k
  | _ => false
  end.
Lemma plain_ok B inc f k : plain k = true -> forall s, exists s', process B inc f k s = Fine s' /\
  (forall m, ~ In m (defines k) -> assoc m (macros s') = assoc m (macros s)).
Proof.
  induction k as [|a b k IHk|m v k IHk|g' k IHk|g k IHk|k IHk|n k IHk|c t IHt e IHe k IHk]; cbn [plain process defines];
    intros P s; try discriminate.
  - eauto.
  - destruct (IHk P (add_item s (Lines f a b))) as (s' & E & M). exists s'. split; [exact E|exact M].
  - destruct (IHk P (add_macro s m (eval B s v))) as (s' & E & M). exists s'. split; [exact E|]. intros m' H.
    rewrite M by (cbn in H; tauto). rewrite assoc_add. destruct (String.eqb_spec m' m); [|reflexivity]. cbn in H. subst. tauto.
  - destruct (IHk P (add_item s (Sys f g))) as (s' & E & M). exists s'. split; [exact E|exact M].
  - apply andb_true_iff in P as [P Pk]. apply andb_true_iff in P as [Pt Pe].
    assert (Hb : exists s', process B inc f (if (eval B s c =? 0)%Z then e else t) s = Fine s' /\
      (forall m, ~ In m (defines t ++ defines e) -> assoc m (macros s') = assoc m (macros s))).
    { destruct (eval B s c =? 0)%Z; [destruct (IHe Pe s) as (s' & E & M)|destruct (IHt Pt s) as (s' & E & M)];
        exists s'; (split; [exact E|]); intros m Hm; apply M; rewrite in_app_iff in Hm; tauto. }
    destruct Hb as (s1 & E1 & M1). rewrite E1. destruct (IHk Pk s1) as (s' & E & M). exists s'. split; [exact E|].
    intros m Hm. rewrite !in_app_iff in Hm. rewrite M by tauto. apply M1. rewrite in_app_iff. tauto.
Qed.
Lemma eval_version B s m : assoc m (macros s) = None -> eval B s (EMacro m) = version B m.
Proof. intros H. cbn [eval]. unfold value, version. now rewrite H. Qed.

(** The end of am-cxx.h. *)
Definition cxx_end : code :=
  match h_cxx with If _ (Define _ _ (If _ _ _ k)) _ _ => k | _ => Done end.
Definition cxx_clang : code := match h_cxx with If _ (Define _ _ (If _ (If c t e _) _ _)) _ _ => If c t e Done | _ => Done end.
Definition cxx_gcc : code := match h_cxx with If _ (Define _ _ (If _ _ k _)) _ _ => k | _ => Done end.
Definition marked (s : pp) : Prop := assoc "KE_LINKONCE" (macros s) <> None.
Lemma end_ok B inc f s : exists s', process B inc f cxx_end s = Fine s' /\ marked s'.
Proof.
  cbn [cxx_end h_cxx]. rewrite process_if. 
  destruct (plain_ok B inc f (if cond B s (EDefined "_MSC_VER") then Text 95 95 Done else Done)
              ltac:(destruct (cond B s (EDefined "_MSC_VER")); reflexivity) s) as (s1 & E1 & _).
  rewrite E1. rewrite process_if. destruct (cond B s1 (EDefined "_MSC_VER")); rewrite process_define, !process_done;
    eexists; (split; [reflexivity|]); unfold marked; rewrite assoc_add, String.eqb_refl; discriminate.
Qed.
Lemma finish B inc f s : exists s', match process B inc f cxx_end s with Fine s => process B inc f Done s | r => r end = Fine s' /\ marked s'.
Proof. destruct (end_ok B inc f s) as (s' & E & M). rewrite E, process_done. eauto. Qed.
Lemma alone_cxx B : environment B ->
  if supported B (version B "__clang_major__") (version B "__clang_minor__")
  then exists s, translate B headers ["am-cxx.h"] = Fine s /\ marked s
  else exists n, translate B headers ["am-cxx.h"] = Rejected "am-cxx.h" n.
Proof.
  intros E. rewrite (one_file B "am-cxx.h" h_cxx eq_refl). set (inc := include B headers 255). clearbody inc.
  assert (defd B "_include_amtl_cxx_support_h_" = false) as D1 by (apply defd_no; [exact E|reserved_in "am-cxx.h"]).
  unfold supported, cxx_of, at_least.
  change h_cxx with (If (ENot (EDefined "_include_amtl_cxx_support_h_")) (Define "_include_amtl_cxx_support_h_" (ENum 1)
   (If (EDefined "__clang__") (match cxx_clang with If c t e _ => If c t e (Define "KE_CLANG_AT_LEAST" (ENum 1)
          (If (ENot (EOr (ELt (ENum 3) (EMacro "__clang_major__")) (EAnd (EEq (EMacro "__clang_major__") (ENum 3)) (ELe (ENum 4) (EMacro "__clang_minor__"))))) (Stop 72 Done) Done Done)) | k => k end)
       cxx_gcc cxx_end)) Done Done).
  rewrite process_if. cbn [cond assoc macros]. rewrite D1. cbv beta iota delta [negb]. rewrite process_define.
  unfold add_macro. cbn [macros onces out]. set (s0 := PP [("_include_amtl_cxx_support_h_", 1%Z)] [] []).
  assert (C : forall m, m <> "_include_amtl_cxx_support_h_" -> assoc m (macros s0) = None).
  { intros m H. cbn [s0 macros assoc]. apply String.eqb_neq in H. now rewrite H. }
  rewrite process_if. cbn [cond]. rewrite C by discriminate.
  destruct (defd B "__clang__").
  - assert (P : plain cxx_clang = true) by reflexivity. destruct (plain_ok B inc "am-cxx.h" cxx_clang P s0) as (s1 & E1 & M1).
    assert (Q : forall m, m <> "_include_amtl_cxx_support_h_" -> mem m (defines cxx_clang) = false -> assoc m (macros s1) = None).
    { intros m H H2. rewrite M1; [apply C, H|]. intros I. apply mem_in in I. congruence. }
    clear M1. cbv beta iota delta [cxx_clang h_cxx]. rewrite process_split.
    match goal with |- context [process B inc "am-cxx.h" (If ?c ?t ?e Done) s0] =>
      change (process B inc "am-cxx.h" (If c t e Done) s0) with (process B inc "am-cxx.h" cxx_clang s0) end.
    rewrite E1, process_define.
    set (s2 := add_macro s1 _ _).
    assert (Q2 : forall m, m <> "_include_amtl_cxx_support_h_" -> m <> "KE_CLANG_AT_LEAST" -> mem m (defines cxx_clang) = false ->
      assoc m (macros s2) = None).
    { intros m H H1 H2. unfold s2. rewrite assoc_add. apply String.eqb_neq in H1. rewrite H1. apply Q; auto. }
    clearbody s2. rewrite process_if. cbn [cond eval].
    change (match value B s2 "__clang_major__" with Some v => v | None => 0%Z end) with (eval B s2 (EMacro "__clang_major__")).
    change (match value B s2 "__clang_minor__" with Some v => v | None => 0%Z end) with (eval B s2 (EMacro "__clang_minor__")).
    rewrite !eval_version by (apply Q2; [discriminate|discriminate|reflexivity]).
    generalize (version B "__clang_major__") (version B "__clang_minor__"). intros x y.
    replace (negb (negb (truth (3 <? x) =? 0) || negb (truth (x =? 3) =? 0) && negb (truth (4 <=? y) =? 0)))%Z
      with (negb ((3 <? x) || (x =? 3) && (4 <=? y)))%Z
      by (destruct (3 <? x)%Z, (x =? 3)%Z, (4 <=? y)%Z; reflexivity).
    destruct ((3 <? x) || (x =? 3) && (4 <=? y))%Z; cbn [negb].
    + rewrite ?process_done. apply finish.
    + exists 72%Z. reflexivity.
  - cbn [cxx_gcc h_cxx]. rewrite process_if. cbn [cond]. rewrite C by discriminate. destruct (defd B "__GNUC__").
    + rewrite process_define. set (s2 := add_macro s0 _ _).
      assert (Q2 : forall m, m <> "_include_amtl_cxx_support_h_" -> m <> "KE_GCC_AT_LEAST" -> assoc m (macros s2) = None).
      { intros m H H1. unfold s2. rewrite assoc_add. apply String.eqb_neq in H1. rewrite H1. apply C; auto. }
      clearbody s2. rewrite process_if. cbn [cond eval].
      change (match value B s2 "__GNUC__" with Some v => v | None => 0%Z end) with (eval B s2 (EMacro "__GNUC__")).
      change (match value B s2 "__GNUC_MINOR__" with Some v => v | None => 0%Z end) with (eval B s2 (EMacro "__GNUC_MINOR__")).
      rewrite !eval_version by (apply Q2; discriminate).
      generalize (version B "__GNUC__") (version B "__GNUC_MINOR__"). intros x y.
      replace (negb (negb (truth (4 <? x) =? 0) || negb (truth (x =? 4) =? 0) && negb (truth (9 <=? y) =? 0)))%Z
        with (negb ((4 <? x) || (x =? 4) && (9 <=? y)))%Z
        by (destruct (4 <? x)%Z, (x =? 4)%Z, (9 <=? y)%Z; reflexivity).
      destruct ((4 <? x) || (x =? 4) && (9 <=? y))%Z; cbn [negb].
      * rewrite ?process_done. apply finish.
      * exists 79%Z. reflexivity.
    + rewrite process_if. cbn [cond]. rewrite C by discriminate. destruct (defd B "_MSC_VER").
      * rewrite process_if. cbn [cond eval].
        change (match value B s0 "_MSC_VER" with Some v => v | None => 0%Z end) with (eval B s0 (EMacro "_MSC_VER")).
        rewrite eval_version by (apply C; discriminate). generalize (version B "_MSC_VER"). intros x.
        replace (negb (truth (x <? 1900) =? 0))%Z with (negb (1900 <=? x)%Z)
          by (rewrite <- Z.ltb_antisym; destruct (x <? 1900)%Z; reflexivity).
        destruct (1900 <=? x)%Z; cbn [negb].
        -- rewrite ?process_done. apply finish.
        -- exists 84%Z. reflexivity.
      * exists 87%Z. reflexivity.
Qed.

(** The hypotheses of the check. *)
Lemma header_in f : header f <-> In f order.
Proof.
  split.
  - intros [k H]. unfold headers in H.
    repeat match type of H with (if String.eqb f ?g then _ else _) = _ =>
      destruct (String.eqb_spec f g); [subst f; apply mem_in; reflexivity|] end. discriminate.
  - intros H. assert (forallb (fun f => match headers f with Some _ => true | None => false end) order = true) as A by (vm_compute; reflexivity).
    rewrite forallb_forall in A. specialize (A f H). unfold header. destruct (headers f); [eauto|discriminate].
Qed.
Definition is_some {A} (o : option A) : bool := match o with Some _ => true | None => false end.
Lemma checked never : forallb (fun h => is_some (check headers order tested_list owners never h)) order = true ->
  forall h, In h order -> check headers order tested_list owners never h <> None.
Proof. intros H h I. rewrite forallb_forall in H. specialize (H h I). destruct (check _ _ _ _ _ h); discriminate. Qed.
Lemma has_file h : In h order -> headers h <> None.
Proof. intros H. apply header_in in H as [k H]. congruence. Qed.
Lemma owner_reserved m o : owner owners m = Some o -> reserved m.
Proof.
  unfold owner. destruct (find _ owners) as [[m' o']|] eqn:F; [|discriminate]. cbn. intros H. injection H as ->.
  apply find_some in F as [I Q]. cbn in Q. apply String.eqb_eq in Q. subst m'.
  assert (A : forallb (fun x => match headers (snd x) with Some k => mem (fst x) (defined_by k) | None => false end && negb (exempt (fst x))) owners = true)
    by (vm_compute; reflexivity).
  rewrite forallb_forall in A. specialize (A _ I). cbn [fst snd] in A. apply andb_true_iff in A as [A X].
  destruct (headers o) as [k|] eqn:Ek; [|discriminate]. apply mem_in in A. apply negb_true_iff in X. eapply reserved_by; eauto.
Qed.
Lemma B_clean B : environment B -> forall m o, owner owners m = Some o -> B m = None.
Proof. intros E m o H. apply E. eapply owner_reserved; eauto. Qed.
Lemma short : (length order < limit)%nat.
Proof. apply Nat.ltb_lt. vm_compute. reflexivity. Qed.

Lemma in_app_assoc m (l : list string) : assoc m (ones l) = if mem m l then Some 1%Z else None.
Proof.
  induction l as [|x l IH]; cbn [ones map assoc mem existsb]; [reflexivity|]. destruct (String.eqb m x); [reflexivity|]. exact IH.
Qed.
Lemma no_windows B : os_of B <> Windows -> assoc "KE_WINDOWS" (platform_macros B) = None.
Proof.
  intros H. unfold platform_macros. change (map (fun m => (m, 1%Z)) ?l) with (ones l). rewrite in_app_assoc.
  unfold arch_macro. destruct (cxx_of B), (os_of B); try congruence;
    repeat match goal with |- context [if ?c then ?a else ?b] =>
       lazymatch type of a with string => destruct c end end; vm_compute; reflexivity.
Qed.
Definition unclean : list string := ["am-float.h"; "am-string.h"; "os/am-system-errors.h"].
Notation alone B never := (as_alone B headers order tested_list owners never).
Lemma units B hs : environment B -> Forall header hs ->
  match translate B headers hs with
  | Fine s => (forall h, In h hs -> alone B [] h s) /\
              (forall f, In f order -> items_in f s = [] /\ (forall m, own tested_list owners f m -> assoc m (macros s) = None) \/ alone B [] f s)
  | Rejected x y => (exists h, In h hs /\ translate B headers [h] = Rejected x y) /\ canon B headers x = Rejected x y
  | _ => False
  end.
Proof.
  intros E H. apply order_independent.
  - apply checked. vm_compute. reflexivity.
  - apply B_clean, E.
  - apply has_file.
  - apply short.
  - intros ? ? ? [].
  - rewrite Forall_forall in H. intros h Hh. apply header_in. auto.
Qed.
Lemma units_not_windows B hs : environment B -> os_of B <> Windows -> Forall header hs ->
  match translate B headers hs with
  | Fine s => (forall h, In h hs -> alone B ["KE_WINDOWS"] h s) /\
              (forall f, In f order -> items_in f s = [] /\ (forall m, own tested_list owners f m -> assoc m (macros s) = None) \/ alone B ["KE_WINDOWS"] f s)
  | Rejected x y => (exists h, In h hs /\ translate B headers [h] = Rejected x y) /\ canon B headers x = Rejected x y
  | _ => False
  end.
Proof.
  intros E W H. apply order_independent.
  - apply checked. vm_compute. reflexivity.
  - apply B_clean, E.
  - apply has_file.
  - apply short.
  - intros m o s [<-|[]] Ho C. assert (o = "am-platform.h") as -> by (vm_compute in Ho; congruence).
    pose proof (alone_platform B E) as P. unfold translate in P. cbn [includes] in P. unfold canon, init in C. rewrite C in P.
    injection P as ->. cbn [macros]. apply no_windows, W.
  - rewrite Forall_forall in H. intros h Hh. apply header_in. auto.
Qed.
Lemma clean_all h : In h order -> ~ In h unclean -> clean headers order tested_list owners [] h = true.
Proof.
  intros H N.
  assert (A : forallb (fun h => mem h unclean || clean headers order tested_list owners [] h) order = true) by (vm_compute; reflexivity).
  rewrite forallb_forall in A. specialize (A h H). apply orb_true_iff in A as [A|A]; [|exact A]. apply mem_in in A. contradiction.
Qed.
Lemma clean_not_windows h : In h order -> clean headers order tested_list owners ["KE_WINDOWS"] h = true.
Proof.
  intros H. assert (A : forallb (clean headers order tested_list owners ["KE_WINDOWS"]) order = true) by (vm_compute; reflexivity).
  rewrite forallb_forall in A. auto.
Qed.
Lemma owned h k m : headers h = Some k -> In m (defined_by k) -> reserved m -> own tested_list owners h m.
Proof.
  intros H I [_ [R1 R2]]. assert (Hh : In h order) by (apply header_in; exists k; exact H).
  assert (A : forallb (fun h => match headers h with
     | Some k => forallb (fun m => exempt m || (tested tested_list m && match owner owners m with Some o => String.eqb o h | None => false end)) (defined_by k)
     | None => false end) order = true) by (vm_compute; reflexivity).
  rewrite forallb_forall in A. specialize (A h Hh). rewrite H in A. rewrite forallb_forall in A. specialize (A m I).
  assert (exempt m = false) as X.
  { unfold exempt, mem. cbn [existsb]. apply String.eqb_neq in R1, R2. now rewrite R1, R2. }
  rewrite X in A. cbn [orb] in A. apply andb_true_iff in A as [T O]. split; [exact T|].
  destruct (owner owners m) as [o|]; [|discriminate]. apply String.eqb_eq in O. now subst.
Qed.
Lemma alone_spec B never h s : header h -> alone B never h s -> clean headers order tested_list owners never h = true -> as_if_alone B h s.
Proof.
  intros [k Hk] (s1 & T & I & M) C. exists k, s1. split; [exact Hk|]. split; [exact T|]. split; [exact (I C)|].
  intros m Hm R. unfold value. rewrite (M m); [reflexivity|]. eapply owned; eauto.
Qed.
Lemma env_just l : forallb (fun h => match headers h with
     | Some k => forallb (fun m => exempt m || negb (is_some (assoc m l))) (defined_by k) | None => false end) order = true ->
  environment (just l).
Proof.
  intros A m [[f [k [H I]]] [R1 R2]]. assert (Hh : In f order) by (apply header_in; exists k; exact H).
  rewrite forallb_forall in A. specialize (A f Hh). rewrite H in A. rewrite forallb_forall in A. specialize (A m I).
  unfold exempt, mem in A. cbn [existsb] in A. apply String.eqb_neq in R1, R2. rewrite R1, R2 in A. cbn in A.
  unfold just. destruct (assoc m l); [discriminate|reflexivity].
Qed.
Lemma arch_in B : In (arch_macro B) arch_macros.
Proof.
  unfold arch_macro.
  repeat match goal with |- context [if ?c then ?a else ?b] => lazymatch type of a with string => destruct c end end; cbn; tauto.
Qed.
Lemma cxx_in c m : In m (cxx_macro c) -> In m cxx_macros.
Proof. destruct c; cbn; tauto. Qed.
Lemma os_in o m : In m (os_macros o) -> In m all_os_macros.
Proof. destruct o; cbn; tauto. Qed.
Lemma platform_has B m : assoc m (platform_macros B) <> None <->
  In m (cxx_macro (cxx_of B)) \/ m = arch_macro B \/ In m (os_macros (os_of B)) \/ m = "_include_amtl_platform_h_".
Proof.
  unfold platform_macros. change (map (fun m => (m, 1%Z)) ?l) with (ones l). rewrite in_app_assoc.
  match goal with |- context [if mem m ?l then _ else _] => pose proof (mem_in m l) as M; destruct (mem m l) end.
  - split; [intros _|discriminate]. pose proof (proj1 M eq_refl) as I. rewrite !in_app_iff, <- !in_rev in I. cbn [In] in I.
    destruct I as [|[[|[]]|[|[|[]]]]]; auto.
  - split; [congruence|]. intros I. assert (X : false = true); [|discriminate]. apply M. rewrite !in_app_iff, <- !in_rev. cbn [In].
    destruct I as [|[|[|]]]; auto.
Qed.
Definition apart (l r : list string) : bool := forallb (fun m => negb (mem m r)) l.
Lemma apart_no l r m : apart l r = true -> In m l -> In m r -> False.
Proof. intros A I J. unfold apart in A. rewrite forallb_forall in A. specialize (A m I). apply mem_in in J. now rewrite J in A. Qed.
Lemma platform_parts B :
  (forall m, In m all_os_macros -> assoc m (platform_macros B) <> None <-> In m (os_macros (os_of B))) /\
  (forall m, In m arch_macros -> assoc m (platform_macros B) <> None <-> m = arch_macro B) /\
  (forall m, In m cxx_macros -> assoc m (platform_macros B) <> None <-> In m (cxx_macro (cxx_of B))).
Proof.
  pose proof (arch_in B) as Ha. pose proof (cxx_in (cxx_of B)) as Hc. pose proof (os_in (os_of B)) as Ho.
  set (g := ["_include_amtl_platform_h_"]). assert (Hg : forall m, m = "_include_amtl_platform_h_" -> In m g) by (cbn; auto).
  split; [|split]; intros m I; rewrite platform_has; (split; [|tauto]); intros [H|[->|[H|H]]]; auto; exfalso.
  - apply (apart_no all_os_macros cxx_macros m); auto.
  - apply (apart_no all_os_macros arch_macros (arch_macro B)); auto.
  - apply (apart_no all_os_macros g m); auto.
  - apply (apart_no arch_macros cxx_macros m); auto.
  - apply (apart_no arch_macros all_os_macros m); auto.
  - apply (apart_no arch_macros g m); auto.
  - apply (apart_no cxx_macros arch_macros (arch_macro B)); auto.
  - apply (apart_no cxx_macros all_os_macros m); auto.
  - apply (apart_no cxx_macros g m); auto.
Qed.
Lemma platform_owned m : In m (all_os_macros ++ arch_macros ++ cxx_macros) -> reserved m /\ own tested_list owners "am-platform.h" m.
Proof.
  intros I. assert (A : forallb (fun m => mem m (defined_by h_platform) && negb (exempt m)) (all_os_macros ++ arch_macros ++ cxx_macros) = true)
    by (vm_compute; reflexivity).
  rewrite forallb_forall in A. specialize (A m I). apply andb_true_iff in A as [A X]. apply mem_in in A. apply negb_true_iff in X.
  assert (R : reserved m) by (eapply (reserved_by "am-platform.h"); [reflexivity|exact A|exact X]).
  split; [exact R|]. eapply owned; [reflexivity|exact A|exact R].
Qed.
