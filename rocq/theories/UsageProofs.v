(** Proofs about the usage text. *)
From Coq Require Import String.
From Verif Require Import Base ArgModel StrModel StrSpec StrProofs StrSplit StrProps UsageModel UsageSpec.
Local Open Scope nat_scope.
Local Open Scope list_scope.

Lemma cstr_space : cstring (c_str (lit " ")) space.
Proof. apply cstring_c_str. cbn. intuition discriminate. Qed.

Lemma intercalate_snoc sep g (word : str) : g <> [] -> intercalate sep (g ++ [word]) = intercalate sep g ++ sep ++ word.
Proof.
  induction g as [|x g IH]; intros H; [easy|]. destruct g as [|y g].
  - reflexivity.
  - change ((x :: y :: g) ++ [word]) with (x :: y :: (g ++ [word])).
    change (intercalate sep (x :: y :: g ++ [word])) with (x ++ sep ++ intercalate sep ((y :: g) ++ [word])).
    rewrite IH by discriminate. change (intercalate sep (x :: y :: g)) with (x ++ sep ++ intercalate sep (y :: g)).
    now rewrite !app_assoc.
Qed.
Lemma intercalate_app sep (a b : list str) : a <> [] -> b <> [] ->
  intercalate sep (a ++ b) = intercalate sep a ++ sep ++ intercalate sep b.
Proof.
  induction a as [|x a IH]; intros Ha Hb; [easy|]. destruct a as [|y a].
  - cbn [app]. destruct b as [|z b]; [easy|]. reflexivity.
  - change ((x :: y :: a) ++ b) with (x :: (y :: a) ++ b).
    change (intercalate sep (x :: (y :: a) ++ b)) with (x ++ sep ++ intercalate sep ((y :: a) ++ b)).
    rewrite IH by (auto; discriminate). change (intercalate sep (x :: y :: a)) with (x ++ sep ++ intercalate sep (y :: a)).
    now rewrite !app_assoc.
Qed.
(** length of a joined line, as the loop counts it. *)
Definition count (g : list str) : nat := fold_right (fun x m => length x + 1 + m) 0 g.
Lemma count_len g : g <> [] -> count g = length (intercalate space g) + 1.
Proof.
  induction g as [|x g IH]; intros H; [easy|]. destruct g as [|y g].
  - cbn. lia.
  - change (intercalate space (x :: y :: g)) with (x ++ space ++ intercalate space (y :: g)).
    rewrite !app_length. change (count (x :: y :: g)) with (length x + 1 + count (y :: g)). rewrite (IH ltac:(discriminate)). cbn. lia.
Qed.
Lemma count_snoc g x : count (g ++ [x]) = count g + length x + 1.
Proof. induction g as [|y g IH]; cbn [count fold_right app]; [lia|]. fold (count (g ++ [x])). fold (count g). rewrite IH. lia. Qed.

Section U.
Variable w : N.
Variable debug cs : bool.

Lemma wrap_ok words : forall line acc, (N.of_nat (length (intercalate space (line ++ words))) < 2 ^ w)%N ->
  (line = [] \/ fits_line line) ->
  exists gs, wrap w debug words line (count line) acc = Ok (acc ++ map (intercalate space) gs)
    /\ wrapped (line ++ words) gs.
Proof.
  induction words as [|word more IH]; intros line acc Hw Hl.
  - cbn [wrap]. rewrite app_nil_r in *. destruct line as [|x l].
    + exists []. rewrite app_nil_r. split; [reflexivity|constructor].
    + rewrite (join_ok w debug (x :: l) (c_str (lit " ")) space cstr_space Hw). cbn [bind].
      exists [x :: l]. split; [reflexivity|]. constructor; [discriminate|]. destruct Hl; [discriminate|assumption].
  - cbn [wrap]. destruct ((max_right <=? count line + length word + 1) && negb (match line with [] => true | _ => false end)) eqn:E.
    + apply andb_prop in E as [E1 E2]. apply Nat.leb_le in E1. destruct line as [|x l]; [discriminate|].
      set (line := x :: l) in *. assert (Hne : line <> []) by discriminate.
      assert (Hsum : intercalate space (line ++ word :: more) = intercalate space line ++ space ++ intercalate space (word :: more))
        by (apply intercalate_app; discriminate).
      rewrite Hsum, !app_length in Hw.
      rewrite (join_ok w debug line (c_str (lit " ")) space cstr_space) by lia. cbn [bind].
      destruct (IH [word] (acc ++ [intercalate space line])) as (gs & H1 & H2).
      * cbn [app]. lia.
      * right. right. eauto.
      * replace (length word + 1) with (count [word]) by (cbn; lia). rewrite H1. exists (line :: gs). split.
        -- rewrite <- app_assoc. reflexivity.
        -- apply wr_more; auto.
           ++ destruct Hl; [discriminate|assumption].
           ++ rewrite intercalate_snoc by exact Hne. rewrite (count_len line Hne) in E1. rewrite !app_length.
              change (length space) with 1. unfold max_right in E1. lia.
    + destruct (IH (line ++ [word]) acc) as (gs & H1 & H2).
      * now rewrite <- app_assoc.
      * right. apply andb_false_iff in E as [E|E].
        -- apply Nat.leb_gt in E. left. pose proof (count_len (line ++ [word])) as C. rewrite count_snoc in C.
           rewrite C in E by (destruct line; discriminate). unfold max_right in E. lia.
        -- destruct line as [|x l]; [|discriminate]. right. exists word. reflexivity.
      * rewrite count_snoc in H1. rewrite <- app_assoc in H2. exists gs. split; [exact H1|exact H2].
Qed.

Lemma wrapped_concat words gs : wrapped words gs -> concat gs = words /\ Forall (fun g => g <> []) gs.
Proof.
  induction 1 as [|g Hg Hf|g word rest gs Hg Hf Hl H IH]; cbn.
  - auto.
  - rewrite app_nil_r. auto.
  - destruct IH as [-> IH]. auto.
Qed.
Lemma wrapped_text words gs : wrapped words gs -> intercalate space (map (intercalate space) gs) = intercalate space words.
Proof.
  induction 1 as [|g Hg Hf|g word rest gs Hg Hf Hl H IH]; [reflexivity..|].
  rewrite intercalate_app by (auto; discriminate). rewrite <- IH. cbn [map].
  destruct gs as [|g2 gs]; [inversion H|]. reflexivity.
Qed.
Lemma wrapped_unique words gs : wrapped words gs -> forall gs', wrapped words gs' -> gs = gs'.
Proof.
  assert (Hlen : forall a b : list str, a <> [] -> length (intercalate space a) <= length (intercalate space (a ++ b))).
  { intros a b Ha. destruct b as [|y b]; [rewrite app_nil_r; lia|]. rewrite intercalate_app by (auto; discriminate).
    rewrite !app_length. lia. }
  assert (Hno : forall g word rest g', g <> [] -> 50 < length (intercalate space (g ++ [word])) -> fits_line g' -> g' <> g ++ word :: rest).
  { intros g word rest g' Hg Hl [Hf|[x Hf]] ->.
    - replace (g ++ word :: rest) with ((g ++ [word]) ++ rest) in Hf by (now rewrite <- app_assoc).
      specialize (Hlen (g ++ [word]) rest). assert (g ++ [word] <> []) by (destruct g; discriminate). specialize (Hlen H). lia.
    - destruct g as [|y [|z g]]; cbn in Hf; [easy|discriminate|discriminate]. }
  induction 1 as [|g Hg Hf|g word rest gs Hg Hf Hl H IH]; intros gs' H'.
  - inversion H' as [|g' Hg' _|g' w' r' gs'' Hg']; subst; auto; [easy|]. destruct g'; discriminate.
  - inversion H' as [|g' Hg' Hf'|g' w' r' gs'' Hg' Hf' Hl' H'']; subst; auto; [easy|]. exfalso. now apply (Hno g' w' r' (g' ++ w' :: r')).
  - inversion H' as [E|g' Hg' Hf' E|g' w' r' gs'' Hg' Hf' Hl' H'' E]; subst.
    + destruct g; discriminate.
    + exfalso. now apply (Hno g word rest (g ++ word :: rest)).
    + assert (Hgg : g = g').
      { clear IH H H' H''. destruct (Nat.lt_trichotomy (length g) (length g')) as [Hlt|[Heq|Hgt]].
        - exfalso. assert (E' : exists r, g' = g ++ word :: r).
          { clear - E Hlt. revert g' E Hlt. induction g as [|x g IH]; intros [|y g'] E Hlt; cbn in *; try lia.
            - injection E as -> E. eauto.
            - injection E as -> E. destruct (IH g' E ltac:(lia)) as [r ->]. eauto. }
          destruct E' as [r ->]. now apply (Hno g word r (g ++ word :: r)).
        - clear - E Heq. revert g' E Heq. induction g as [|x g IH]; intros [|y g'] E Heq; cbn in *; try discriminate; auto.
          injection E as -> E. f_equal. apply IH; auto.
        - exfalso. assert (E' : exists r, g = g' ++ w' :: r).
          { clear - E Hgt. revert g E Hgt. induction g' as [|x g' IH]; intros [|y g] E Hgt; cbn in *; try lia.
            - injection E as -> E. eauto.
            - injection E as -> E. destruct (IH g E ltac:(lia)) as [r ->]. eauto. }
          destruct E' as [r ->]. now apply (Hno g' w' r (g' ++ w' :: r)). }
      subst g'. apply app_inv_head in E. injection E as -> ->. f_equal. now apply IH.
Qed.

Lemma help_ok_cells o : good_help w o -> exists helps, help_cells w debug o = Ok helps /\ help_right o helps.
Proof.
  intros (h & Hh & Hz & Hl). unfold help_cells. rewrite Hh. cbn [get bind].
  destruct (split_ok debug (c_str h) h (c_str (lit " ")) space (cstring_c_str h Hz) cstr_space ltac:(discriminate)) as (words & H1 & H2).
  rewrite H1. cbn [bind].
  assert (Ew : intercalate space words = h).
  { destruct H2 as [[-> ->]|[_ H2]]; [reflexivity|]. now apply cuts_intercalate in H2. }
  destruct (wrap_ok words [] []) as (gs & H3 & H4); [cbn [app]; now rewrite Ew|now left|].
  cbn [count fold_right app] in H3. exists (map (intercalate space) gs). split; [exact H3|]. exists h, words, gs. auto.
Qed.

(** Left cells. *)
Lemma name_cells_ok o : good_named w o -> exists cells, name_cells o = Ok cells /\ name_left o cells.
Proof. intros (_ & n & Hn & _). unfold name_cells. rewrite Hn. cbn. eexists. split; [reflexivity|]. exists n. auto. Qed.

Lemma dash_cuts s ps : ~ In 0%N s -> cuts (lit "-") s ps ->
  intercalate (lit "_") ps = map (fun c => if N.eqb c 45 then 95%N else c) s.
Proof.
  intros Hz H. induction H as [s Hs|a b ps Ha H IH].
  - cbn. symmetry. rewrite <- (map_id s) at 2. apply map_ext_in. intros c Hc. destruct (N.eqb_spec c 45) as [->|]; [|reflexivity].
    exfalso. apply Hs. apply in_split in Hc as (a & b & ->). exists a, b. reflexivity.
  - assert (Hzb : ~ In 0%N b) by (intros Hin; apply Hz; apply in_or_app; right; now right).
    specialize (IH Hzb). destruct ps as [|p ps]; [inversion H|].
    change (intercalate (lit "_") (a :: p :: ps)) with (a ++ lit "_" ++ intercalate (lit "_") (p :: ps)).
    rewrite IH. rewrite !map_app. f_equal.
    rewrite <- (map_id a) at 1. apply map_ext_in. intros c Hc. destruct (N.eqb_spec c 45) as [->|]; [|reflexivity].
    exfalso. apply in_split in Hc as (a1 & a2 & ->). specialize (Ha a1 (a2 ++ lit "-" ++ b)).
    rewrite !app_length in Ha. cbn [length] in Ha. assert (L : length a1 + S (length a2) <= length a1); [|lia].
    apply Ha. rewrite <- app_assoc. reflexivity.
Qed.

Lemma suffix_ok o : good_option w cs o -> value_suffix w debug cs o = Ok (value_part o).
Proof.
  intros (_ & _ & Hne & Hn). unfold value_suffix, value_part. destruct (u_must o), (u_can o); cbn [negb andb orb]; auto.
  set (name := match u_long o with Some l => Some l | None => u_short o end).
  assert (Hname : exists n, name = Some n /\ (u_short o = Some n \/ u_long o = Some n)
            /\ value_name o = map (fun c => if N.eqb c 45 then 95%N else ascii_upper c) n).
  { unfold name, value_name. destruct (u_long o) as [l|]; [eauto|]. destruct (u_short o) as [s|]; [eauto|]. destruct Hne; congruence. }
  destruct Hname as (n & -> & Hn' & ->). destruct (Hn n Hn') as (Hnn & [Hz Hl] & Hb & Hs). cbn [get bind].
  assert (Hd : cstring (c_str (lit "-")) (lit "-")) by (apply cstring_c_str; cbn; intuition discriminate).
  assert (Hu : cstring (c_str (lit "_")) (lit "_")) by (apply cstring_c_str; cbn; intuition discriminate).
  destruct (split_ok debug (c_str n) n (c_str (lit "-")) (lit "-") (cstring_c_str n Hz) Hd ltac:(discriminate)) as (ps & H1 & H2).
  rewrite H1. cbn [bind]. destruct H2 as [[-> _]|[_ H2]]; [easy|]. pose proof (dash_cuts n ps Hz H2) as E.
  rewrite (join_ok w debug ps (c_str (lit "_")) (lit "_") Hu) by (rewrite E, map_length; exact Hl). cbn [bind]. rewrite E.
  set (r := fun c => if N.eqb c 45 then 95%N else c).
  assert (Hr : forall c, In c (map r n) -> (exists c0, In c0 n /\ c = r c0)) by (intros c Hc; apply in_map_iff in Hc as (c0 & <- & Hc0); eauto).
  assert (Hup : uppercase cs (c_str (map r n)) = Ok (map ascii_upper (map r n))).
  { apply (C53_case_partial cs).
    - apply cstring_c_str. intros Hin. apply Hr in Hin as (c0 & Hc0 & E0). unfold r in E0. destruct (N.eqb_spec c0 45); [discriminate|]. congruence.
    - apply Forall_forall. intros c Hin. apply Hr in Hin as (c0 & Hc0 & ->). rewrite Forall_forall in Hb. specialize (Hb c0 Hc0).
      unfold r, is_byte in *. destruct (N.eqb c0 45); lia.
    - destruct Hs as [->|Hs]; [now left|right]. apply Forall_forall. intros c Hin. apply Hr in Hin as (c0 & Hc0 & ->).
      rewrite Forall_forall in Hs. specialize (Hs c0 Hc0). unfold r. destruct (N.eqb c0 45); left; lia. }
  rewrite Hup. cbn [bind]. rewrite map_map. do 2 f_equal. apply map_ext. intros c. unfold r. destruct (N.eqb c 45); reflexivity.
Qed.
Lemma option_cells_ok o : good_option w cs o -> exists cells, option_cells w debug cs o = Ok cells /\ option_left o cells.
Proof.
  intros H. unfold option_cells. rewrite (suffix_ok o H). cbn [bind]. destruct H as (_ & _ & Hne & _).
  destruct (u_short o) as [s|] eqn:Es, (u_long o) as [l|] eqn:El.
  - set (joined := indent ++ lit "-" ++ s ++ lit ", --" ++ l ++ value_part o ++ lit " ").
    assert (Ej : joined = lit "  -" ++ s ++ lit ", --" ++ l ++ value_part o ++ lit " ") by reflexivity.
    destruct (Nat.leb_spec (length joined) max_left) as [Hle|Hgt]; eexists; (split; [reflexivity|]); rewrite Ej in *.
    + now apply ol_one.
    + now apply ol_two.
  - eexists. split; [reflexivity|]. now apply ol_short.
  - eexists. split; [reflexivity|]. now apply ol_long.
  - destruct Hne; congruence.
Qed.

(** Rows. *)
Lemma col_width_ge cells m : m <= fold_left (fun m (l : str) => Nat.max m (length l)) cells m
  /\ (forall l, In l cells -> length l <= fold_left (fun m (l : str) => Nat.max m (length l)) cells m).
Proof.
  revert m. induction cells as [|x cells IH]; intros m; cbn; [split; [lia|easy]|].
  destruct (IH (Nat.max m (length x))) as [H1 H2]. split; [lia|]. intros l [<-|Hl]; [lia|auto].
Qed.
Lemma col_width_in cells m k : k <= fold_left (fun m (l : str) => Nat.max m (length l)) cells m -> m < k -> exists l, In l cells /\ k <= length l.
Proof.
  revert m. induction cells as [|x cells IH]; intros m H Hm; cbn in H; [lia|].
  destruct (Nat.le_gt_cases k (length x)) as [Hx|Hx]; [exists x; cbn; auto|].
  destruct (IH _ H ltac:(lia)) as (l & Hl & Hk). exists l. cbn. auto.
Qed.
Lemma pad_padded s : pad s = padded s. Proof. reflexivity. Qed.
Lemma beside_rows cells : forall helps, let (out, left) := beside cells helps in
  out ++ concat (map (fun h => ln (spaces ++ h)) left)
  = unlines (map (fun k => padded (cell cells k) ++ cell helps k) (seq 0 (Nat.max (length cells) (length helps)))).
Proof.
  assert (Hrest : forall helps, concat (map (fun h => ln (spaces ++ h)) helps)
     = unlines (map (fun k => padded (cell [] k) ++ cell helps k) (seq 0 (length helps)))).
  { induction helps as [|h helps IH]; [reflexivity|]. cbn [map concat length seq]. rewrite IH. unfold unlines. cbn [map concat].
    f_equal. rewrite <- seq_shift, !map_map. f_equal. apply map_ext. intros k. unfold cell. cbn [nth]. now destruct k. }
  induction cells as [|l cells IH]; intros helps.
  - cbn [beside length Nat.max app]. apply Hrest.
  - destruct helps as [|h helps]; cbn [beside length].
    + specialize (IH []). destruct (beside cells []) as [out left]. cbn [length] in IH. rewrite Nat.max_0_r in *. cbn [seq map].
      unfold unlines in *. cbn [map concat]. rewrite <- app_assoc. f_equal. rewrite IH. rewrite <- seq_shift, !map_map. f_equal.
      apply map_ext. intros k. unfold cell. cbn [nth]. now destruct k.
    + specialize (IH helps). destruct (beside cells helps) as [out left]. cbn [Nat.max seq map]. unfold unlines in *. cbn [map concat].
      rewrite <- app_assoc. f_equal. rewrite IH. rewrite <- seq_shift, !map_map. reflexivity.
Qed.
Lemma print_entry_rows cells helps : exists rows, print_entry cells helps = unlines rows /\ shows cells helps rows.
Proof.
  unfold print_entry. destruct (Nat.leb_spec max_left (col_width cells)) as [Hle|Hgt].
  - eexists. split; [|left; split; [|reflexivity]].
    + unfold unlines. rewrite map_app, concat_app, !map_map. f_equal.
    + unfold col_width in Hle. apply col_width_in with (m := 0) in Hle; [exact Hle|unfold max_left; lia].
  - pose proof (beside_rows cells helps) as H. destruct (beside cells helps) as [out left]. eexists. split; [exact H|].
    right. split; [|reflexivity]. intros l Hl. apply (proj2 (col_width_ge cells 0)) in Hl. unfold col_width, max_left in *. lia.
Qed.

Lemma unlines_app a b : unlines (a ++ b) = unlines a ++ unlines b.
Proof. unfold unlines. now rewrite map_app, concat_app. Qed.
Lemma mapM_ok {A B} (f : A -> outcome B) (R : A -> B -> Prop) l : (forall x, In x l -> exists y, f x = Ok y /\ R x y) ->
  exists ys, mapM f l = Ok ys /\ Forall2 R l ys.
Proof.
  induction l as [|x l IH]; intros H; cbn.
  - exists []. auto.
  - destruct (H x (or_introl eq_refl)) as (y & -> & Hy). destruct IH as (ys & -> & Hys); [intros; apply H; now right|].
    exists (y :: ys). auto.
Qed.
(** Entries of one section. *)
Lemma section_rows (left : udesc -> list str -> Prop) (named : bool) os cells helps rest started :
  Forall (fun o => negb (is_null (u_name o)) = named) os ->
  Forall2 left os cells -> Forall2 help_right os helps ->
  named = true \/ started = true ->
  exists tables, print_entries (combine (map (fun o => negb (is_null (u_name o))) os) (combine cells helps) ++ rest) started
     = unlines (concat tables) ++ print_entries rest started /\ Forall2 (entry left) os tables.
Proof.
  intros Hn Hc Hh Hs. revert helps Hh. induction Hc as [|o cs0 os cells Hl Hc IH]; intros helps Hh.
  - exists []. split; [reflexivity|constructor].
  - inversion Hh as [|o' h os' hs Hh1 Hh2]; subst. apply Forall_cons_iff in Hn as [Hn1 Hn2].
    destruct (IH Hn2 hs Hh2) as (tables & E & Ht). cbn [map combine app print_entries]. rewrite Hn1.
    replace (negb named && negb started) with false by (destruct Hs as [->| ->]; [reflexivity|now rewrite andb_false_r]).
    rewrite orb_false_r, E. destruct (print_entry_rows cs0 h) as (rows & -> & Hr).
    exists (rows :: tables). split; [cbn [concat app]; now rewrite unlines_app, <- app_assoc|].
    constructor; [|exact Ht]. exists cs0, h. auto.
Qed.
End U.
Lemma F2_len' {A B} (R : A -> B -> Prop) l l' : Forall2 R l l' -> length l = length l'.
Proof. induction 1; cbn; congruence. Qed.
Lemma combine_app {A B} (a b : list A) (x y : list B) : length a = length x -> combine (a ++ b) (x ++ y) = combine a x ++ combine b y.
Proof.
  revert x. induction a as [|h a IH]; intros [|k x] H; cbn in *; try discriminate; auto. f_equal. apply IH. congruence.
Qed.
Lemma optional_section os cells helps rest :
  Forall (fun o => negb (is_null (u_name o)) = false) os ->
  Forall2 option_left os cells -> Forall2 help_right os helps ->
  exists tables, print_entries (combine (map (fun o => negb (is_null (u_name o))) os) (combine cells helps) ++ rest) false
     = unlines (heading (nonempty os) (lit "optional arguments:") ++ concat tables) ++ print_entries rest (nonempty os)
     /\ Forall2 (entry option_left) os tables.
Proof.
  intros Hn Hc Hh. destruct Hc as [|o cs0 os cells Hl Hc].
  - exists []. split; [reflexivity|constructor].
  - inversion Hh as [|o' h os' hs Hh1 Hh2]; subst. apply Forall_cons_iff in Hn as [Hn1 Hn2].
    destruct (section_rows option_left false os cells hs rest true Hn2 Hc Hh2 (or_intror eq_refl)) as (tables & E & Ht).
    cbn [map combine app print_entries]. rewrite Hn1. cbn [negb andb orb]. rewrite E.
    destruct (print_entry_rows cs0 h) as (rows & -> & Hr).
    exists (rows :: tables). split.
    + cbn [nonempty heading concat app]. unfold unlines. cbn [map concat]. fold (unlines (rows ++ concat tables)). rewrite unlines_app.
      unfold ln, nl. rewrite <- !app_assoc. reflexivity.
    + constructor; [|exact Ht]. exists cs0, h. auto.
Qed.
