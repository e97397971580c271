(** Proofs for C127. *)
From Verif Require Import Base FnNestModel FnNestSpec.

Definition nul : cell := Cell PNull None.

Inductive crep (h : list (option block)) : cell -> option tree -> list nat -> Prop :=
| cr_null : crep h nul None []
| cr_in c : crep h (Cell PIn (Some c)) (Some (Node c [])) []
| cr_heap b c cs vs fp : nth_error h b = Some (Some (Block c cs)) -> creps h cs vs fp ->
    crep h (Cell (PHeap b) None) (Some (Node c vs)) (fp ++ [b])
with creps (h : list (option block)) : list cell -> list (option tree) -> list nat -> Prop :=
| crs_nil : creps h [] [] []
| crs_cons x v f xs vs fs : crep h x v f -> creps h xs vs fs -> creps h (x :: xs) (v :: vs) (f ++ fs).
Scheme crep_mind := Induction for crep Sort Prop with creps_mind := Induction for creps Sort Prop.
Combined Scheme crep_ind2 from crep_mind, creps_mind.

Definition same_on (f : list nat) (h h' : list (option block)) : Prop := forall b, In b f -> nth_error h' b = nth_error h b.

Lemma frame h : (forall x v f, crep h x v f -> forall h', same_on f h h' -> crep h' x v f) /\
  (forall xs vs f, creps h xs vs f -> forall h', same_on f h h' -> creps h' xs vs f).
Proof.
  apply (crep_ind2 h (fun x v f _ => forall h', same_on f h h' -> crep h' x v f) (fun xs vs f _ => forall h', same_on f h h' -> creps h' xs vs f));
    intros; try (constructor; fail).
  - econstructor. { rewrite H0; eauto. apply in_or_app; right; now left. } apply H. intros d Hd; apply H0, in_or_app; auto.
  - constructor; [apply H|apply H0]; intros d Hd; apply H1, in_or_app; auto.
Qed.
Lemma crep_frame h h' x v f : crep h x v f -> same_on f h h' -> crep h' x v f.
Proof. intros; eapply (proj1 (frame h)); eauto. Qed.
Lemma creps_frame h h' x v f : creps h x v f -> same_on f h h' -> creps h' x v f.
Proof. intros; eapply (proj2 (frame h)); eauto. Qed.

Lemma alive h : (forall x v f, crep h x v f -> forall b, In b f -> exists y, nth_error h b = Some (Some y)) /\
  (forall xs vs f, creps h xs vs f -> forall b, In b f -> exists y, nth_error h b = Some (Some y)).
Proof.
  apply (crep_ind2 h (fun x v f _ => forall b, In b f -> exists y, nth_error h b = Some (Some y))
    (fun xs vs f _ => forall b, In b f -> exists y, nth_error h b = Some (Some y))); intros; try contradiction.
  - apply in_app_or in H0 as [|[->|[]]]; eauto.
  - apply in_app_or in H1 as [|]; auto.
Qed.
Lemma crep_alive h x v f b : crep h x v f -> In b f -> exists y, nth_error h b = Some (Some y).
Proof. intros; eapply (proj1 (alive h)); eauto. Qed.
Lemma creps_alive h x v f b : creps h x v f -> In b f -> exists y, nth_error h b = Some (Some y).
Proof. intros; eapply (proj2 (alive h)); eauto. Qed.

Lemma live_ok h b y : nth_error h b = Some (Some y) -> live h b = Ok y.
Proof. unfold live; now intros ->. Qed.
Lemma nth_lt {A} (l : list A) i x : nth_error l i = Some x -> i < length l.
Proof. intros H; apply nth_error_Some; congruence. Qed.

(** destroy *)
Definition kills (f : list nat) (h : list (option block)) : list (option block) := fold_left (fun h b => upd h b None) f h.
Lemma kills_app f g h : kills (f ++ g) h = kills g (kills f h).
Proof. apply fold_left_app. Qed.
Lemma kills_length f : forall h, length (kills f h) = length h.
Proof. induction f; intros; cbn; auto. unfold kills in IHf. rewrite IHf. apply upd_length. Qed.
Lemma kills_other f : forall h b, ~ In b f -> nth_error (kills f h) b = nth_error h b.
Proof. induction f as [|a f IH]; intros h b Hb; cbn; auto. cbn in Hb. unfold kills in IH. rewrite IH; [|tauto]. apply nth_error_upd_ne. tauto. Qed.
Lemma kills_dead f : forall h b, In b f -> b < length h -> nth_error (kills f h) b = Some None.
Proof.
  induction f as [|a f IH]; intros h b Hb Hl; cbn; [contradiction|].
  change (nth_error (kills f (upd h a None)) b = Some None).
  destruct (in_dec Nat.eq_dec b f) as [Hi|Hi].
  - apply IH; auto. now rewrite upd_length.
  - rewrite kills_other by auto. destruct Hb as [->|Hb]; [|contradiction]. now apply nth_error_upd_eq.
Qed.

Lemma NoDup_app_inv {A} (l r : list A) : NoDup (l ++ r) -> NoDup l /\ NoDup r /\ forall x, In x l -> ~ In x r.
Proof.
  induction l as [|a l IH]; cbn; intros H. { repeat split; auto. constructor. }
  inversion H; subst. apply IH in H3 as (H3 & H4 & H5). rewrite in_app_iff in H2. repeat split; auto.
  - constructor; tauto.
  - intros x [->|Hx]; auto.
Qed.
Lemma NoDup_app_intro {A} (l r : list A) : NoDup l -> NoDup r -> (forall x, In x l -> ~ In x r) -> NoDup (l ++ r).
Proof.
  induction l as [|a l IH]; cbn; intros Hl Hr H; auto. inversion Hl; subst. constructor.
  - rewrite in_app_iff. intros [?|?]; auto. eapply H; eauto.
  - apply IH; auto.
Qed.

Lemma destroy_all h0 :
  (forall x v f, crep h0 x v f -> exists n, forall fuel h, n <= fuel -> same_on f h0 h -> NoDup f -> destroy_cell fuel h x = Ok (kills f h)) /\
  (forall xs vs f, creps h0 xs vs f -> exists n, forall fuel h, n <= fuel -> same_on f h0 h -> NoDup f -> destroy_cells fuel h xs = Ok (kills f h)).
Proof.
  apply (crep_ind2 h0
   (fun x v f _ => exists n, forall fuel h, n <= fuel -> same_on f h0 h -> NoDup f -> destroy_cell fuel h x = Ok (kills f h))
   (fun xs vs f _ => exists n, forall fuel h, n <= fuel -> same_on f h0 h -> NoDup f -> destroy_cells fuel h xs = Ok (kills f h))).
  - exists 1. intros [|fuel] h Hn; [lia|]. reflexivity.
  - intros c; exists 1. intros [|fuel] h Hn; [lia|]. reflexivity.
  - intros b c cs vs fp Hb Hc [n IH]. exists (S n). intros [|fuel] h Hn Hs Hd; [lia|]. cbn [destroy_cell impl].
    apply NoDup_app_inv in Hd as (Hd & _ & Hdb).
    assert (Hbh : nth_error h b = Some (Some (Block c cs))) by (rewrite Hs; auto; apply in_or_app; right; now left).
    rewrite (live_ok _ _ _ Hbh). cbn [bind caps].
    change (bind (destroy_cells fuel h cs) (fun h => bind (live h b) (fun _ => Ok (upd h b None))) = Ok (kills (fp ++ [b]) h)).
    rewrite IH; auto; [|lia|intros d Hdd; apply Hs, in_or_app; auto]. cbn [bind].
    rewrite (live_ok _ _ (Block c cs)). { cbn. now rewrite kills_app. }
    rewrite kills_other; auto. intros Hi; apply (Hdb _ Hi). now left.
  - exists 0. intros; reflexivity.
  - intros x v f xs vs fs Hx [n1 IH1] Hxs [n2 IH2]. exists (max n1 n2). intros fuel h Hn Hs Hd.
    apply NoDup_app_inv in Hd as (Hd1 & Hd2 & Hd3). cbn [destroy_cells].
    change (bind (destroy_cell fuel h x) (fun h => destroy_cells fuel h xs) = Ok (kills (f ++ fs) h)).
    rewrite IH1; auto; [|lia|intros d Hdd; apply Hs, in_or_app; auto]. cbn [bind].
    rewrite IH2; auto; [now rewrite kills_app|lia|].
    intros d Hdd. rewrite kills_other; [apply Hs, in_or_app; auto|]. intros Hi; eapply Hd3; eauto.
Qed.
Definition destroy_ok h := proj1 (destroy_all h).
Definition destroys_ok h := proj2 (destroy_all h).

(** copy *)
Lemma nth_app_l {A} (l r : list A) i : i < length l -> nth_error (l ++ r) i = nth_error l i.
Proof. apply nth_error_app1. Qed.
Lemma nth_app_here {A} (l : list A) x : nth_error (l ++ [x]) (length l) = Some x.
Proof. rewrite nth_error_app2 by lia. now rewrite Nat.sub_diag. Qed.
Lemma same_on_app f h r : (forall b, In b f -> b < length h) -> same_on f h (h ++ r).
Proof. intros H b Hb. apply nth_error_app1; auto. Qed.
Lemma creps_lt h xs vs f b : creps h xs vs f -> In b f -> b < length h.
Proof. intros H Hb. eapply creps_alive in H as [y H]; eauto. eapply nth_lt; eauto. Qed.
Lemma crep_lt h xs vs f b : crep h xs vs f -> In b f -> b < length h.
Proof. intros H Hb. eapply crep_alive in H as [y H]; eauto. eapply nth_lt; eauto. Qed.
Lemma same_on_lt f h0 h : same_on f h0 h -> (forall b, In b f -> exists y, nth_error h0 b = Some (Some y)) -> forall b, In b f -> b < length h.
Proof. intros Hs H b Hb. destruct (H b Hb) as [y Hy]. rewrite <- (Hs _ Hb) in Hy. eapply nth_lt; eauto. Qed.

Lemma copy_all h0 :
  (forall x v f, crep h0 x v f -> exists n, forall len, exists new y, forall h, length h = len -> same_on f h0 h ->
     (forall fuel, n <= fuel -> copy_cell fuel h x = Ok (h ++ new, y)) /\ crep (h ++ new) y v (seq len (length new))) /\
  (forall xs vs f, creps h0 xs vs f -> exists n, forall len, exists new ys, forall h, length h = len -> same_on f h0 h ->
     (forall fuel, n <= fuel -> copy_cells fuel h xs = Ok (h ++ new, ys)) /\ creps (h ++ new) ys vs (seq len (length new))).
Proof.
  apply (crep_ind2 h0
   (fun x v f _ => exists n, forall len, exists new y, forall h, length h = len -> same_on f h0 h ->
     (forall fuel, n <= fuel -> copy_cell fuel h x = Ok (h ++ new, y)) /\ crep (h ++ new) y v (seq len (length new)))
   (fun xs vs f _ => exists n, forall len, exists new ys, forall h, length h = len -> same_on f h0 h ->
     (forall fuel, n <= fuel -> copy_cells fuel h xs = Ok (h ++ new, ys)) /\ creps (h ++ new) ys vs (seq len (length new)))).
  - exists 1. intros len. exists [], nul. intros h Hl _. split; [|constructor]. intros [|fuel] Hn; [lia|]. now rewrite app_nil_r.
  - intros c; exists 1. intros len. exists [], (Cell PIn (Some c)). intros h Hl _. split; [|constructor]. intros [|fuel] Hn; [lia|]. now rewrite app_nil_r.
  - intros b c cs vs fp Hb Hc [n IH]. exists (S n). intros len. destruct (IH len) as (new & ys & IH').
    exists (new ++ [Some (Block c ys)]), (Cell (PHeap (len + length new)) None). intros h Hl Hs.
    destruct (IH' h Hl) as [Hcp Hr]. { intros d Hd; apply Hs, in_or_app; auto. }
    assert (Hbh : nth_error h b = Some (Some (Block c cs))) by (rewrite Hs; auto; apply in_or_app; right; now left).
    split.
    + intros [|fuel] Hn; [lia|]. cbn [copy_cell impl]. rewrite (live_ok _ _ _ Hbh). cbn [bind caps].
      change (bind (copy_cells fuel h cs) (fun '(h, cs) => Ok (h ++ [Some (Block c cs)], Cell (PHeap (length h)) None)) =
        Ok (h ++ new ++ [Some (Block c ys)], Cell (PHeap (len + length new)) None)).
      rewrite Hcp by lia. cbn [bind]. rewrite app_length, Hl, <- app_assoc. reflexivity.
    + rewrite app_length. cbn [length]. rewrite seq_app. cbn [seq]. constructor 3 with (cs := ys).
      * rewrite app_assoc, <- Hl, <- app_length. apply nth_app_here.
      * rewrite app_assoc. eapply creps_frame; eauto. apply same_on_app. intros d Hd. eapply creps_lt; eauto.
  - exists 0. intros len. exists [], []. intros h Hl _. split; [|constructor]. intros. cbn. now rewrite app_nil_r.
  - intros x v f xs vs fs Hx [n1 IH1] Hxs [n2 IH2]. exists (max n1 n2). intros len.
    destruct (IH1 len) as (new1 & y & IH1'). destruct (IH2 (len + length new1)) as (new2 & ys & IH2').
    exists (new1 ++ new2), (y :: ys). intros h Hl Hs.
    destruct (IH1' h Hl) as [Hcp1 Hr1]. { intros d Hd; apply Hs, in_or_app; auto. }
    destruct (IH2' (h ++ new1)) as [Hcp2 Hr2]. { rewrite app_length; lia. }
    { intros d Hd. rewrite nth_error_app1. { apply Hs, in_or_app; auto. }
      eapply same_on_lt with (f := f ++ fs); eauto. 2:{ apply in_or_app; eauto. }
      intros e He. apply in_app_or in He as [He|He]; [eapply crep_alive|eapply creps_alive]; eauto. }
    split.
    + intros fuel Hn. cbn [copy_cells].
      change (bind (copy_cell fuel h x) (fun '(h, c) => bind (copy_cells fuel h xs) (fun '(h, cs) => Ok (h, c :: cs))) = Ok (h ++ new1 ++ new2, y :: ys)).
      rewrite Hcp1 by lia. cbn [bind]. rewrite Hcp2 by lia. cbn [bind]. now rewrite app_assoc.
    + rewrite app_length, seq_app, app_assoc. constructor; auto.
      eapply crep_frame; eauto. apply same_on_app. intros d Hd. eapply crep_lt; eauto.
Qed.

(** observe *)
Lemma observe_ok h0 :
  (forall x v f, crep h0 x v f -> exists n, forall fuel, n <= fuel -> observe fuel h0 x = Ok v) /\
  (forall xs vs f, creps h0 xs vs f -> exists n, forall fuel, n <= fuel ->
    (fix each (xs : list cell) := match xs with
      | [] => Ok [] | x :: xs => do v <- observe fuel h0 x; do vs <- each xs; Ok (v :: vs) end) xs = Ok vs).
Proof.
  apply (crep_ind2 h0 (fun x v f _ => exists n, forall fuel, n <= fuel -> observe fuel h0 x = Ok v)
   (fun xs vs f _ => exists n, forall fuel, n <= fuel ->
    (fix each (xs : list cell) := match xs with
      | [] => Ok [] | x :: xs => do v <- observe fuel h0 x; do vs <- each xs; Ok (v :: vs) end) xs = Ok vs)).
  - exists 1. intros [|fuel] Hn; [lia|]. reflexivity.
  - intros c; exists 1. intros [|fuel] Hn; [lia|]. reflexivity.
  - intros b c cs vs fp Hb Hc [n IH]. exists (S n). intros [|fuel] Hn; [lia|]. cbn [observe impl].
    rewrite (live_ok _ _ _ Hb). cbn [bind caps]. rewrite IH by lia. reflexivity.
  - exists 0; reflexivity.
  - intros x v f xs vs fs Hx [n1 IH1] Hxs [n2 IH2]. exists (max n1 n2). intros fuel Hn. rewrite IH1 by lia. cbn [bind]. rewrite IH2 by lia. reflexivity.
Qed.

(** One Function taken out of the world. *)
Definition at_loc (o : option nat) (k : nat) : loc := match o with None => Glob k | Some b => Cap b k end.
Inductive hole (h : list (option block)) : option nat -> list cell -> nat -> list nat -> list (option tree) -> loc -> list nat -> list nat -> Prop :=
| ho_here o xs1 y xs2 vs1 v vs2 f1 f2 : creps h xs1 vs1 f1 -> creps h xs2 vs2 f2 ->
    hole h o (xs1 ++ y :: xs2) (length xs1) [] (vs1 ++ v :: vs2) (at_loc o (length xs1)) f1 f2
| ho_down o xs1 xs2 b c cs vs1 vs2 ws k ks l fl fr f1 f2 : creps h xs1 vs1 f1 -> creps h xs2 vs2 f2 ->
    nth_error h b = Some (Some (Block c cs)) -> hole h (Some b) cs k ks ws l fl fr ->
    hole h o (xs1 ++ Cell (PHeap b) None :: xs2) (length xs1) (k :: ks) (vs1 ++ Some (Node c ws) :: vs2) l (f1 ++ fl) (fr ++ b :: f2).
Definition owned (s : world) (o : option nat) (xs : list cell) : Prop :=
  match o with None => globs s = xs | Some b => exists c, nth_error (heap s) b = Some (Some (Block c xs)) end.

Lemma creps_length h xs vs f : creps h xs vs f -> length xs = length vs.
Proof. induction 1; cbn; auto. Qed.
Lemma creps_split h : forall xs vs fp, creps h xs vs fp -> forall k v, nth_error vs k = Some v ->
  exists xs1 y xs2 vs1 vs2 f1 f f2, xs = xs1 ++ y :: xs2 /\ vs = vs1 ++ v :: vs2 /\ k = length xs1 /\ fp = f1 ++ f ++ f2 /\
    creps h xs1 vs1 f1 /\ crep h y v f /\ creps h xs2 vs2 f2.
Proof.
  induction 1 as [|x v f xs vs fs Hx Hxs IH]; intros [|k] w Hk; try discriminate.
  - injection Hk as <-. exists [], x, xs, [], vs, [], f, fs. repeat split; auto. constructor.
  - destruct (IH _ _ Hk) as (xs1 & y & xs2 & vs1 & vs2 & f1 & f' & f2 & -> & -> & -> & -> & H1 & H2 & H3).
    exists (x :: xs1), y, xs2, (v :: vs1), vs2, (f ++ f1), f', f2. rewrite <- app_assoc. repeat split; auto. now constructor.
Qed.
Lemma creps_join h xs1 y xs2 vs1 v vs2 f1 f f2 : creps h xs1 vs1 f1 -> crep h y v f -> creps h xs2 vs2 f2 ->
  creps h (xs1 ++ y :: xs2) (vs1 ++ v :: vs2) (f1 ++ f ++ f2).
Proof. intros H1 H2 H3. induction H1; cbn. { now constructor. } rewrite <- app_assoc. now constructor. Qed.
Lemma nth_mid {A} (l : list A) x r : nth_error (l ++ x :: r) (length l) = Some x.
Proof. rewrite nth_error_app2 by lia. now rewrite Nat.sub_diag. Qed.
Lemma upd_mid {A} (l : list A) x r y : upd (l ++ x :: r) (length l) y = l ++ y :: r.
Proof. induction l; cbn; congruence. Qed.
Lemma get_owned s o xs k y : owned s o xs -> nth_error xs k = Some y -> get s (at_loc o k) = Ok y.
Proof.
  destruct o as [b|]; cbn; intros Ho Hk.
  - destruct Ho as [c Ho]. rewrite (live_ok _ _ _ Ho). cbn. now apply slot_get_ok.
  - rewrite Ho. now apply slot_get_ok.
Qed.

Lemma focus : forall ks h o xs vs fp k v w, creps h xs vs fp -> nth_error vs k = Some v -> lookup v ks = Some w ->
  exists l y fl fm fr, hole h o xs k ks vs l fl fr /\ crep h y w fm /\ fp = fl ++ fm ++ fr /\
    forall s, heap s = h -> owned s o xs -> walk s (at_loc o k) ks = Ok l /\ get s l = Ok y.
Proof.
  induction ks as [|j ks IH]; intros h o xs vs fp k v w Hc Hk Hw;
    destruct (creps_split _ _ _ _ Hc _ _ Hk) as (xs1 & y & xs2 & vs1 & vs2 & f1 & f & f2 & -> & -> & -> & -> & H1 & H2 & H3); cbn in Hw.
  - injection Hw as <-. exists (at_loc o (length xs1)), y, f1, f, f2. repeat split; auto.
    + now constructor.
    + eapply get_owned; eauto. apply nth_mid.
  - destruct v as [[c ws]|]; [|discriminate]. destruct (nth_error ws j) as [u|] eqn:Ej; [|discriminate].
    inversion H2; subst.
    + destruct j; discriminate.
    + destruct (IH h (Some b) cs ws fp j u w) as (l & y & fl & fm & fr & Hh & Hy & -> & Hs); auto.
      exists l, y, (f1 ++ fl), fm, (fr ++ b :: f2). split; [now constructor 2 with (cs := cs)|]. split; auto.
      split. { rewrite <- !app_assoc. reflexivity. }
      intros s <- Ho. cbn [walk]. erewrite get_owned; eauto. 2:apply nth_mid. cbn [bind impl]. apply Hs; auto. exists c. auto.
Qed.

Lemma hole_walk h o xs k ks vs l fl fr : hole h o xs k ks vs l fl fr -> forall s, heap s = h -> owned s o xs -> walk s (at_loc o k) ks = Ok l.
Proof.
  induction 1; intros s Hs Ho; cbn [walk]; auto.
  erewrite get_owned; eauto. 2:apply nth_mid. cbn [bind impl]. apply IHhole; auto. exists c. now rewrite Hs.
Qed.

Lemma plug h o xs k ks vs l fl fr : hole h o xs k ks vs l fl fr -> forall s y w fm, heap s = h -> owned s o xs -> get s l = Ok y -> crep h y w fm ->
  creps h xs (upd vs k (change (nth k vs None) ks w)) (fl ++ fm ++ fr).
Proof.
  induction 1; intros s y0 w fm Hs Ho Hg Hy; cbn [change].
  - erewrite get_owned in Hg; eauto. 2:apply nth_mid. injection Hg as <-.
    rewrite (creps_length _ _ _ _ H), upd_mid. now apply creps_join.
  - specialize (IHhole s y0 w fm Hs). rewrite (creps_length _ _ _ _ H). rewrite upd_mid.
    erewrite nth_error_nth by apply nth_mid.
    replace ((f1 ++ fl) ++ fm ++ fr ++ b :: f2) with (f1 ++ ((fl ++ fm ++ fr) ++ [b]) ++ f2) by (rewrite <- !app_assoc; reflexivity).
    apply creps_join; auto. econstructor; eauto. apply IHhole; auto. exists c. now rewrite Hs.
Qed.

Lemma hole_frame h o xs k ks vs l fl fr : hole h o xs k ks vs l fl fr -> forall h', same_on (fl ++ fr) h h' -> hole h' o xs k ks vs l fl fr.
Proof.
  induction 1; intros h' Hs.
  - constructor; eapply creps_frame; eauto; intros d Hd; apply Hs, in_or_app; auto.
  - econstructor.
    + eapply creps_frame; eauto; intros d Hd; apply Hs, in_or_app; left; apply in_or_app; auto.
    + eapply creps_frame; eauto; intros d Hd; apply Hs, in_or_app; right; apply in_or_app; right; now right.
    + rewrite Hs; eauto. apply in_or_app; right; apply in_or_app; right; now left.
    + apply IHhole. intros d Hd; apply Hs. rewrite !in_app_iff in *. tauto.
Qed.

(** Which holder a location is in. *)
Definition parent (l : loc) : list nat := match l with Glob _ => [] | Cap b _ => [b] end.
Lemma hole_parent h o xs k ks vs l fl fr : hole h o xs k ks vs l fl fr -> forall b, In b (parent l) -> o = Some b \/ In b fr.
Proof.
  induction 1; intros d Hd.
  - destruct o; cbn in Hd; [|contradiction]. destruct Hd as [->|[]]; auto.
  - right. apply in_or_app. destruct (IHhole d Hd) as [E|E]; [injection E as ->; right; now left|auto].
Qed.

(** put *)
Definition like (s s' : world) (l : loc) : Prop :=
  length (heap s') = length (heap s) /\ (forall b, ~ In b (parent l) -> nth_error (heap s') b = nth_error (heap s) b) /\
  (forall b, (exists y, nth_error (heap s') b = Some (Some y)) <-> (exists y, nth_error (heap s) b = Some (Some y))).
Lemma put_owned s o xs k y z : owned s o xs -> nth_error xs k = Some y ->
  exists s', put s (at_loc o k) z = Ok s' /\ owned s' o (upd xs k z) /\ like s s' (at_loc o k) /\ (o <> None -> globs s' = globs s).
Proof.
  destruct o as [b|]; cbn; intros Ho Hk.
  - destruct Ho as [c Ho]. rewrite (live_ok _ _ _ Ho). cbn [bind caps cls]. rewrite slot_set_ok by (eapply nth_lt; eauto). cbn [bind].
    eexists. split; [reflexivity|]. cbn [heap globs]. pose proof (nth_lt _ _ _ Ho) as Hl.
    split. { exists c. now apply nth_error_upd_eq. } split; auto. split; cbn [heap]; [apply upd_length|]. split.
    + intros d Hd. apply nth_error_upd_ne. intros ->; apply Hd; now left.
    + intros d. rewrite nth_error_upd. destruct (Nat.eqb_spec b d) as [->|]; cbn [andb]; [|tauto].
      apply Nat.ltb_lt in Hl. rewrite Hl. split; intros _; eauto.
  - rewrite Ho, slot_set_ok by (eapply nth_lt; eauto). cbn [bind]. eexists. split; [reflexivity|]. split; [reflexivity|]. split; [|congruence].
    split; [reflexivity|]. split; tauto.
Qed.
Lemma hole_put h o xs k ks vs l fl fr : hole h o xs k ks vs l fl fr -> forall s z, heap s = h -> owned s o xs -> NoDup (fl ++ fr) ->
  (forall b, o = Some b -> ~ In b (fl ++ fr)) ->
  exists s' xs', put s l z = Ok s' /\ owned s' o xs' /\ hole (heap s') o xs' k ks vs l fl fr /\ get s' l = Ok z /\ like s s' l /\ (o <> None -> globs s' = globs s).
Proof.
  induction 1; intros s z Hs Ho Hd Hn.
  - destruct (put_owned s o (xs1 ++ y :: xs2) (length xs1) y z) as (s' & Hp & Ho' & Hl & Hgl); auto. { apply nth_mid. }
    exists s', (xs1 ++ z :: xs2). rewrite upd_mid in Ho'. split; [exact Hp|]. split; [exact Ho'|]. split; [|split; [|split; auto]].
    + destruct Hl as (_ & Hl & _). subst h.
      constructor; eapply creps_frame; eauto; intros d Hdd; apply Hl; destruct o as [b|]; cbn; auto; intros [->|[]]; apply (Hn d eq_refl), in_or_app; auto.
    + eapply get_owned; eauto. apply nth_mid.
  - assert (Hd2 : NoDup (fl ++ fr) /\ ~ In b (fl ++ fr) /\ (forall d, In d f1 \/ In d f2 -> d <> b /\ ~ In d (fl ++ fr))).
    { rewrite <- app_assoc in Hd. apply NoDup_app_inv in Hd as (_ & Hd & Hd1).
      rewrite app_assoc in Hd. apply NoDup_app_inv in Hd as (Hda & Hdb & Hdc). inversion Hdb; subst. split; auto. split.
      - intros Hb. apply (Hdc _ Hb). now left.
      - intros d [Hdd|Hdd]; split.
        + intros ->. apply (Hd1 _ Hdd). rewrite !in_app_iff. cbn. tauto.
        + intros Hx. apply (Hd1 _ Hdd). rewrite !in_app_iff in *. tauto.
        + intros ->. contradiction.
        + intros Hx. apply (Hdc _ Hx). now right. }
    destruct Hd2 as (Hda & Hdb & Hdc).
    destruct (IHhole s z Hs) as (s' & cs' & Hp & Ho' & Hh' & Hg & Hl & Hgl); auto.
    { exists c. now rewrite Hs. } { intros ? [= <-]; auto. }
    destruct Ho' as [c' Ho']. exists s', (xs1 ++ Cell (PHeap b) None :: xs2). split; auto.
    assert (Hpar : forall d, In d (parent l) -> d = b \/ In d fr).
    { intros d Hdd. destruct (hole_parent _ _ _ _ _ _ _ _ _ H2 d Hdd) as [[= ->]|]; auto. }
    assert (c' = c) as ->.
    { destruct (in_dec Nat.eq_dec b (parent l)) as [Hi|Hi].
      - destruct l as [|b' k']; cbn in Hi; [contradiction|]. destruct Hi as [->|[]].
        cbn [put] in Hp. rewrite Hs in Hp. rewrite (live_ok _ _ _ H1) in Hp. cbn [bind caps cls] in Hp.
        destruct (slot_set cs k' z); try discriminate. cbn [bind] in Hp. injection Hp as <-. cbn [heap] in Ho'.
        rewrite nth_error_upd_eq in Ho'; [congruence|]. eapply nth_lt; eauto.
      - destruct Hl as (_ & Hl & _). rewrite Hl in Ho' by auto. congruence. }
    split; [|split; [|split; [auto|split; auto]]].
    + destruct o as [d|]; cbn in *.
      * destruct Ho as [co Ho]. exists co. destruct Hl as (_ & Hl & _). rewrite Hl; auto. intros Hx. apply Hpar in Hx as [->|Hx].
        -- apply (Hn b eq_refl). rewrite !in_app_iff. cbn. tauto.
        -- apply (Hn d eq_refl). rewrite !in_app_iff. tauto.
      * rewrite Hgl; auto. congruence.
    + destruct Hl as (_ & Hl & _). subst h. econstructor; eauto.
      * eapply creps_frame; eauto. intros d Hdd. apply Hl. intros Hx. destruct (Hdc d (or_introl Hdd)) as [Hy Hz]. apply Hpar in Hx as [->|Hx]; auto. apply Hz, in_or_app; auto.
      * eapply creps_frame; eauto. intros d Hdd. apply Hl. intros Hx. destruct (Hdc d (or_intror Hdd)) as [Hy Hz]. apply Hpar in Hx as [->|Hx]; auto. apply Hz, in_or_app; auto.
    + intros _. apply Hgl. congruence.
Qed.

(** The world as a whole: variables that represent a store, and temporary Functions. *)
Definition cnt (b : nat) (l : list nat) : nat := count_occ Nat.eq_dec l b.
Lemma cnt_app b l r : cnt b (l ++ r) = cnt b l + cnt b r.
Proof. apply count_occ_app. Qed.
Lemma cnt_in b l : In b l <-> cnt b l > 0.
Proof. apply count_occ_In. Qed.
Lemma cnt_nodup l : NoDup l <-> forall b, cnt b l <= 1.
Proof. apply NoDup_count_occ. Qed.
Lemma cnt_seq b n k : cnt b (seq n k) <= 1 /\ (cnt b (seq n k) >= 1 <-> n <= b < n + k).
Proof. split. { apply cnt_nodup, seq_NoDup. } rewrite <- in_seq. symmetry. apply cnt_in. Qed.
Definition Inv (s : world) (st : store) (ts : list cell) (vs : list (option tree)) : Prop :=
  exists fp ft, creps (heap s) (globs s) st fp /\ creps (heap s) ts vs ft /\ (forall b, cnt b fp + cnt b ft <= 1) /\
    forall b y, nth_error (heap s) b = Some (Some y) -> cnt b fp + cnt b ft >= 1.
Ltac cnts := repeat match goal with H : context [cnt _ (_ ++ _)] |- _ => setoid_rewrite cnt_app in H end; repeat setoid_rewrite cnt_app.

Lemma at_inv st p w : at_ st p = Some w -> exists v, nth_error st (fst p) = Some v /\ lookup v (snd p) = Some w.
Proof. unfold at_. destruct (nth_error st (fst p)); [eauto|discriminate]. Qed.

Lemma open_ s st ts vs p w : Inv s st ts vs -> at_ st p = Some w -> exists l y fl fm fr ft,
  hole (heap s) None (globs s) (fst p) (snd p) st l fl fr /\ crep (heap s) y w fm /\ creps (heap s) ts vs ft /\
  (forall b, cnt b fl + cnt b fm + cnt b fr + cnt b ft <= 1) /\
  (forall b y, nth_error (heap s) b = Some (Some y) -> cnt b fl + cnt b fm + cnt b fr + cnt b ft >= 1) /\
  resolve s p = Ok l /\ get s l = Ok y.
Proof.
  intros (fp & ft & H1 & H2 & H3 & H4) Hp. apply at_inv in Hp as (v & Hn & Hl).
  destruct (focus _ _ None _ _ _ _ _ _ H1 Hn Hl) as (l & y & fl & fm & fr & Hh & Hy & -> & Hs).
  destruct (Hs s eq_refl eq_refl) as [Hw Hg]. exists l, y, fl, fm, fr, ft. repeat (split; [assumption|]).
  split. { intros b. specialize (H3 b). rewrite !cnt_app in H3. lia. }
  split. { intros b y' Hb. specialize (H4 b y' Hb). rewrite !cnt_app in H4. lia. } auto.
Qed.
Lemma close_ s st ts vs p l y w fl fm fr ft :
  hole (heap s) None (globs s) (fst p) (snd p) st l fl fr -> get s l = Ok y -> crep (heap s) y w fm -> creps (heap s) ts vs ft ->
  (forall b, cnt b fl + cnt b fm + cnt b fr + cnt b ft <= 1) ->
  (forall b y, nth_error (heap s) b = Some (Some y) -> cnt b fl + cnt b fm + cnt b fr + cnt b ft >= 1) ->
  Inv s (set_at st p w) ts vs.
Proof.
  intros Hh Hg Hy Ht H3 H4. exists (fl ++ fm ++ fr), ft. split.
  - unfold set_at. eapply plug; eauto. reflexivity.
  - split; auto. split; [intros b; specialize (H3 b)|intros b y' Hb; specialize (H4 b y' Hb)]; rewrite !cnt_app; lia.
Qed.

(** get and put *)
Lemma loc_eq_dec (l g : loc) : {l = g} + {l <> g}.
Proof. decide equality; apply Nat.eq_dec. Qed.
Lemma get_put_same s l z s' : put s l z = Ok s' -> get s' l = Ok z.
Proof.
  destruct l as [n|b k]; cbn [bind globs heap caps cls get put].
  - unfold slot_set. destruct (Nat.ltb_spec n (length (globs s))); try discriminate. cbn [bind globs heap caps cls get put]. intros [= <-]. cbn [bind globs heap caps cls get put]. apply slot_get_ok. now apply nth_error_upd_eq.
  - unfold live. destruct (nth_error (heap s) b) as [[y|]|] eqn:Eb; try discriminate. cbn [bind globs heap caps cls get put].
    unfold slot_set. destruct (Nat.ltb_spec k (length (caps y))); try discriminate. cbn [bind globs heap caps cls get put]. intros [= <-]. cbn [bind globs heap caps cls get put].
    rewrite nth_error_upd_eq by (eapply nth_lt; eauto). cbn [bind globs heap caps cls get put]. apply slot_get_ok. now apply nth_error_upd_eq.
Qed.
Lemma get_put_other s l z s' g : put s l z = Ok s' -> g <> l -> get s' g = get s g.
Proof.
  destruct l as [n|b k]; cbn [bind globs heap caps cls get put].
  - unfold slot_set. destruct (Nat.ltb_spec n (length (globs s))); try discriminate. cbn [bind globs heap caps cls get put]. intros [= <-] Hne. destruct g as [m|d j]; cbn [bind globs heap caps cls get put]; auto.
    unfold slot_get. rewrite nth_error_upd_ne by congruence; reflexivity.
  - unfold live. destruct (nth_error (heap s) b) as [[y|]|] eqn:Eb; try discriminate. cbn [bind globs heap caps cls get put].
    unfold slot_set. destruct (Nat.ltb_spec k (length (caps y))); try discriminate. cbn [bind globs heap caps cls get put]. intros [= <-] Hne. destruct g as [m|d j]; cbn [bind globs heap caps cls get put]; auto.
    unfold live. destruct (Nat.eq_dec b d) as [->|Hd].
    + rewrite nth_error_upd_eq by (eapply nth_lt; eauto). rewrite Eb. cbn [bind globs heap caps cls get put]. unfold slot_get. rewrite nth_error_upd_ne by congruence; reflexivity.
    + rewrite nth_error_upd_ne by auto. reflexivity.
Qed.
Lemma upd_upd {A} (l : list A) i a b : upd (upd l i a) i b = upd l i b.
Proof. revert i; induction l; intros [|i]; cbn; congruence. Qed.
Lemma upd_comm {A} (l : list A) i j a b : i <> j -> upd (upd l i a) j b = upd (upd l j b) i a.
Proof. revert i j; induction l; intros [|i] [|j] H; cbn; try congruence. f_equal. apply IHl. congruence. Qed.
Lemma upd_same {A} (l : list A) i a : nth_error l i = Some a -> upd l i a = l.
Proof. revert i; induction l; intros [|i]; cbn; try congruence. intros H. f_equal. auto. Qed.
Lemma upd_app {A} (l r : list A) i a : i < length l -> upd (l ++ r) i a = upd l i a ++ r.
Proof. revert i; induction l; intros [|i] H; cbn in *; try lia; auto. f_equal. apply IHl. lia. Qed.
Lemma put_put s l a s' b : put s l a = Ok s' -> put s' l b = put s l b.
Proof.
  destruct l as [n|d k]; cbn [bind globs heap caps cls get put].
  - unfold slot_set. destruct (Nat.ltb_spec n (length (globs s))); try discriminate. cbn [bind globs heap caps cls get put]. intros [= <-]. cbn [bind globs heap caps cls get put]. rewrite upd_length.
    destruct (Nat.ltb_spec n (length (globs s))); [|lia]. cbn [bind globs heap caps cls get put]. now rewrite upd_upd.
  - unfold live. destruct (nth_error (heap s) d) as [[y|]|] eqn:Eb; try discriminate. cbn [bind globs heap caps cls get put].
    unfold slot_set. destruct (Nat.ltb_spec k (length (caps y))); try discriminate. cbn [bind globs heap caps cls get put]. intros [= <-]. cbn [bind globs heap caps cls get put].
    rewrite nth_error_upd_eq by (eapply nth_lt; eauto). cbn [bind globs heap caps cls get put]. rewrite upd_length. destruct (Nat.ltb_spec k (length (caps y))); [|lia]. cbn [bind globs heap caps cls get put]. now rewrite !upd_upd.
Qed.
Lemma put_get s l x : get s l = Ok x -> put s l x = Ok s.
Proof.
  destruct s as [g h]. destruct l as [n|d k]; cbn [bind globs heap caps cls get put].
  - unfold slot_get. destruct (nth_error g n) eqn:E; try discriminate. intros [= ->]. rewrite slot_set_ok by (eapply nth_lt; eauto). cbn [bind globs heap caps cls get put]. now rewrite upd_same.
  - unfold live. destruct (nth_error h d) as [[[c y]|]|] eqn:Eb; try discriminate. cbn [bind globs heap caps cls get put]. unfold slot_get. destruct (nth_error y k) eqn:E; try discriminate.
    intros [= ->]. rewrite slot_set_ok by (eapply nth_lt; eauto). cbn [bind globs heap caps cls get put]. rewrite (upd_same y) by auto. now rewrite upd_same.
Qed.
Lemma put_comm s l g a b sA sB : l <> g -> put s g a = Ok sA -> put sA l b = Ok sB -> exists sC, put s l b = Ok sC /\ put sC g a = Ok sB.
Proof.
  destruct s as [gs h]. intros Hne. destruct g as [n|d k], l as [m|e j]; cbn; unfold slot_set, live; cbn [bind globs heap caps cls get put].
  - destruct (Nat.ltb_spec n (length gs)); try discriminate. cbn [bind globs heap caps cls get put]. intros [= <-]. cbn [bind globs heap caps cls get put]. rewrite upd_length.
    destruct (Nat.ltb_spec m (length gs)); try discriminate. cbn [bind globs heap caps cls get put]. intros [= <-]. eexists; split; [reflexivity|]. cbn [bind globs heap caps cls get put]. rewrite upd_length.
    destruct (Nat.ltb_spec n (length gs)); [|lia]. cbn [bind globs heap caps cls get put]. rewrite upd_comm by congruence; reflexivity.
  - destruct (Nat.ltb_spec n (length gs)); try discriminate. cbn [bind globs heap caps cls get put]. intros [= <-]. cbn [bind globs heap caps cls get put].
    destruct (nth_error h e) as [[y|]|]; try discriminate. cbn [bind globs heap caps cls get put]. destruct (Nat.ltb_spec j (length (caps y))); try discriminate. cbn [bind globs heap caps cls get put]. intros [= <-].
    eexists; split; [reflexivity|]. cbn [bind globs heap caps cls get put]. destruct (Nat.ltb_spec n (length gs)); [|lia]. reflexivity.
  - destruct (nth_error h d) as [[y|]|] eqn:Ed; try discriminate. cbn [bind globs heap caps cls get put]. destruct (Nat.ltb_spec k (length (caps y))); try discriminate. cbn [bind globs heap caps cls get put]. intros [= <-]. cbn [bind globs heap caps cls get put].
    destruct (Nat.ltb_spec m (length gs)); try discriminate. cbn [bind globs heap caps cls get put]. intros [= <-]. eexists; split; [reflexivity|]. cbn [bind globs heap caps cls get put].
    rewrite Ed. cbn [bind].
    destruct (Nat.ltb_spec k (length (caps y))); [|lia]. reflexivity.
  - destruct (nth_error h d) as [[y|]|] eqn:Ed; try discriminate. cbn [bind globs heap caps cls get put]. destruct (Nat.ltb_spec k (length (caps y))) as [Hk|]; try discriminate. cbn [bind globs heap caps cls get put]. intros [= <-]. cbn [bind globs heap caps cls get put].
    destruct (Nat.eq_dec d e) as [->|Hde].
    + rewrite nth_error_upd_eq by (eapply nth_lt; eauto). rewrite Ed. cbn [bind globs heap caps cls get put]. rewrite upd_length. destruct (Nat.ltb_spec j (length (caps y))); try discriminate. cbn [bind globs heap caps cls get put]. intros [= <-].
      eexists; split; [reflexivity|]. cbn [bind globs heap caps cls get put]. rewrite nth_error_upd_eq by (eapply nth_lt; eauto). cbn [bind globs heap caps cls get put]. rewrite upd_length.
      destruct (Nat.ltb_spec k (length (caps y))); [|lia]. cbn [bind globs heap caps cls get put]. rewrite !upd_upd, upd_comm by congruence; reflexivity.
    + rewrite nth_error_upd_ne by auto. destruct (nth_error h e) as [[z|]|] eqn:Ee; try discriminate. cbn [bind globs heap caps cls get put]. destruct (Nat.ltb_spec j (length (caps z))); try discriminate. cbn [bind globs heap caps cls get put]. intros [= <-].
      eexists; split; [reflexivity|]. cbn [bind globs heap caps cls get put]. rewrite nth_error_upd_ne by auto. rewrite Ed. cbn [bind globs heap caps cls get put]. destruct (Nat.ltb_spec k (length (caps y))); [|lia]. cbn [bind globs heap caps cls get put]. rewrite upd_comm; auto.
Qed.
Lemma get_app s l x new : get s l = Ok x -> get (World (globs s) (heap s ++ new)) l = Ok x.
Proof.
  destruct l as [n|d k]; cbn [bind globs heap caps cls get put]; auto. unfold live. destruct (nth_error (heap s) d) as [[y|]|] eqn:E; try discriminate. rewrite nth_error_app1 by (eapply nth_lt; eauto). now rewrite E.
Qed.
Lemma walk_app s new : forall ks l g, walk s l ks = Ok g -> walk (World (globs s) (heap s ++ new)) l ks = Ok g.
Proof.
  induction ks as [|k ks IH]; cbn [walk]; intros l g; auto. destruct (get s l) eqn:E; try discriminate. rewrite (get_app _ _ _ _ E). cbn [bind]. destruct (impl a); try discriminate. auto.
Qed.
Lemma put_app s1 l a s0 new b : put s1 l a = Ok s0 ->
  put (World (globs s1) (heap s1 ++ new)) l b = put (World (globs s0) (heap s0 ++ new)) l b.
Proof.
  destruct l as [n|d k]; cbn [bind globs heap caps cls get put].
  - unfold slot_set. destruct (Nat.ltb_spec n (length (globs s1))); try discriminate. cbn [bind globs heap caps cls get put]. intros [= <-]. cbn [bind globs heap caps cls get put]. rewrite upd_length.
    destruct (Nat.ltb_spec n (length (globs s1))); [|lia]. cbn [bind globs heap caps cls get put]. now rewrite upd_upd.
  - unfold live. destruct (nth_error (heap s1) d) as [[y|]|] eqn:Eb; try discriminate. cbn [bind globs heap caps cls get put]. pose proof (nth_lt _ _ _ Eb) as Hl.
    unfold slot_set. destruct (Nat.ltb_spec k (length (caps y))); try discriminate. cbn [bind globs heap caps cls get put]. intros [= <-]. cbn [bind globs heap caps cls get put].
    rewrite nth_error_app1 by auto. rewrite Eb. cbn [bind globs heap caps cls get put]. rewrite nth_error_app1 by (rewrite upd_length; auto). rewrite nth_error_upd_eq by auto. cbn [bind globs heap caps cls get put]. rewrite upd_length.
    destruct (Nat.ltb_spec k (length (caps y))); [|lia]. cbn [bind globs heap caps cls get put]. rewrite !upd_app by (rewrite ?upd_length; auto). now rewrite !upd_upd.
Qed.
Lemma put_like s l z s' : put s l z = Ok s' -> like s s' l.
Proof.
  destruct l as [n|b k]; cbn [bind globs heap caps cls get put].
  - destruct (slot_set (globs s) n z); try discriminate. cbn [bind globs heap caps cls get put]. intros [= <-]. repeat split; auto.
  - unfold live. destruct (nth_error (heap s) b) as [[y|]|] eqn:Eb; try discriminate. cbn [bind globs heap caps cls get put]. destruct (slot_set (caps y) k z) as [c| |]; try discriminate. cbn [bind globs heap caps cls get put]. intros [= <-].
    pose proof (nth_lt _ _ _ Eb) as Hl. split; cbn [heap]; [apply upd_length|]. split.
    + intros d Hd. apply nth_error_upd_ne. intros ->; apply Hd; now left.
    + intros d. rewrite nth_error_upd. destruct (Nat.eqb_spec b d) as [->|]; cbn [andb]; [|tauto].
      apply Nat.ltb_lt in Hl. rewrite Hl. split; intros _; eauto.
Qed.

(** Worlds where some Functions have become empty. *)
Definition sub (s0 s : world) : Prop := forall l x, get s0 l = Ok x -> impl x <> PNull -> get s l = Ok x.
Lemma sub_walk s0 s : sub s0 s -> forall ks l g, walk s0 l ks = Ok g -> walk s l ks = Ok g.
Proof.
  intros Hs. induction ks as [|k ks IH]; cbn [walk]; intros l g; auto. destruct (get s0 l) eqn:E; try discriminate. cbn [bind].
  destruct (impl a) eqn:Ei; try discriminate. rewrite (Hs _ _ E) by congruence. cbn [bind]. rewrite Ei. auto.
Qed.
Lemma put_nul_sub s l s0 : put s l nul = Ok s0 -> sub s0 s.
Proof.
  intros Hp g x Hg Hx. destruct (loc_eq_dec g l) as [->|Hne].
  - rewrite (get_put_same _ _ _ _ Hp) in Hg. injection Hg as <-. now destruct Hx.
  - now rewrite (get_put_other _ _ _ _ _ Hp Hne) in Hg.
Qed.
Lemma sub_put s l z s' : get s l = Ok nul -> put s l z = Ok s' -> sub s s'.
Proof.
  intros Hn Hp g x Hg Hx. destruct (loc_eq_dec g l) as [->|Hne].
  - rewrite Hn in Hg. injection Hg as <-. now destruct Hx.
  - now rewrite (get_put_other _ _ _ _ _ Hp Hne).
Qed.
Lemma kills_sub g h f : sub (World g (kills f h)) (World g h).
Proof.
  intros [n|b k] x; cbn; auto. unfold live. intros H _. destruct (in_dec Nat.eq_dec b f) as [Hi|Hi].
  - destruct (Nat.lt_ge_cases b (length h)) as [Hl|Hl].
    + now rewrite kills_dead in H by auto.
    + rewrite (proj2 (nth_error_None _ _)) in H by (rewrite kills_length; lia). discriminate.
  - now rewrite kills_other in H by auto.
Qed.
Lemma sub_trans a b c : sub a b -> sub b c -> sub a c.
Proof. intros H1 H2 l x Hg Hx. auto. Qed.

(** What happens to the store. *)
Lemma lookup_change : forall ks v w u, lookup v ks = Some u -> lookup (change v ks w) ks = Some w.
Proof.
  induction ks as [|k ks IH]; cbn; intros v w u; auto. destruct v as [[c vs]|]; [|discriminate].
  destruct (nth_error vs k) as [x|] eqn:E; [|discriminate]. intros H. rewrite nth_error_upd_eq by (eapply nth_lt; eauto).
  erewrite nth_error_nth by eauto. eauto.
Qed.
Lemma at_set_eq st p w u : at_ st p = Some u -> at_ (set_at st p w) p = Some w.
Proof.
  intros H. apply at_inv in H as (v & Hn & Hl). unfold at_, set_at. rewrite nth_error_upd_eq by (eapply nth_lt; eauto).
  erewrite nth_error_nth by eauto. eapply lookup_change; eauto.
Qed.
Lemma change_same : forall ks v u, lookup v ks = Some u -> change v ks u = v.
Proof.
  induction ks as [|k ks IH]; cbn; intros v u; [congruence|]. destruct v as [[c vs]|]; auto.
  destruct (nth_error vs k) as [x|] eqn:E; [|discriminate]. intros H. erewrite nth_error_nth by eauto. rewrite (IH _ _ H). now rewrite upd_same.
Qed.
Lemma set_at_same st p u : at_ st p = Some u -> set_at st p u = st.
Proof. intros H. apply at_inv in H as (v & Hn & Hl). unfold set_at. erewrite nth_error_nth by eauto. rewrite (change_same _ _ _ Hl). now apply upd_same. Qed.
Lemma change_change : forall ks v a b u, lookup v ks = Some u -> change (change v ks a) ks b = change v ks b.
Proof.
  induction ks as [|k ks IH]; cbn; intros v a b u; auto. destruct v as [[c vs]|]; auto.
  destruct (nth_error vs k) as [x|] eqn:E; [|discriminate]. intros H. rewrite upd_upd. erewrite (nth_error_nth vs) by eauto.
  erewrite nth_error_nth by (apply nth_error_upd_eq; eapply nth_lt; eauto). now rewrite (IH _ _ _ _ H).
Qed.
Lemma set_set st p a b u : at_ st p = Some u -> set_at (set_at st p a) p b = set_at st p b.
Proof.
  intros H. apply at_inv in H as (v & Hn & Hl). unfold set_at. rewrite upd_upd. erewrite (nth_error_nth st) by eauto.
  erewrite nth_error_nth by (apply nth_error_upd_eq; eapply nth_lt; eauto). now rewrite (change_change _ _ _ _ _ Hl).
Qed.
Definition unrel (a b : list nat) : Prop := a <> b /\ (forall k ks, a <> b ++ k :: ks) /\ (forall k ks, b <> a ++ k :: ks).
Lemma unrel_cons k a b : unrel (k :: a) (k :: b) -> unrel a b.
Proof. intros (H1 & H2 & H3). split; [congruence|]. split; intros j js ->; [eapply H2|eapply H3]; reflexivity. Qed.
Lemma unrel_cases a b : unrel a b -> exists k ks j js, a = k :: ks /\ b = j :: js /\ (k <> j \/ (k = j /\ unrel ks js)).
Proof.
  intros (H1 & H2 & H3). destruct a as [|k ks], b as [|j js].
  - congruence.
  - exfalso; eapply H3; reflexivity.
  - exfalso; eapply H2; reflexivity.
  - exists k, ks, j, js. repeat split; auto. destruct (Nat.eq_dec k j) as [->|]; auto. right; split; auto. apply unrel_cons with j. now split.
Qed.
Lemma lookup_other : forall a b v w u, unrel a b -> lookup v a = Some u -> lookup (change v a w) b = lookup v b.
Proof.
  induction a as [|k ks IH]; intros b v w u Hu Hl; apply unrel_cases in Hu as (k' & ks' & j & js & [= <- <-] & -> & Hu). cbn in *.
  destruct v as [[c vs]|]; auto. destruct (nth_error vs k) as [x|] eqn:E; [|discriminate]. destruct Hu as [Hne|[<- Hu]].
  - now rewrite nth_error_upd_ne.
  - rewrite nth_error_upd_eq by (eapply nth_lt; eauto). rewrite E. erewrite nth_error_nth by eauto. eauto.
Qed.
Lemma change_comm : forall a b v w z u, unrel a b -> lookup v a = Some u -> change (change v a w) b z = change (change v b z) a w.
Proof.
  induction a as [|k ks IH]; intros b v w z u Hu Hl; apply unrel_cases in Hu as (k' & ks' & j & js & [= <- <-] & -> & Hu). cbn in *.
  destruct v as [[c vs]|]; auto. destruct (nth_error vs k) as [x|] eqn:E; [|discriminate]. pose proof (nth_lt _ _ _ E). destruct Hu as [Hne|[<- Hu]].
  - rewrite upd_comm by auto. f_equal. f_equal.
    rewrite (nth_error_nth' vs None H) in E. injection E as <-.
    assert (forall (l : list (option tree)) i j a, i <> j -> nth i (upd l j a) None = nth i l None) as Hnn.
    { clear. induction l; intros [|i] [|j] b Hne; cbn; auto; try lia; apply IHl; lia. }
    rewrite !Hnn by auto. reflexivity.
  - rewrite !upd_upd. erewrite !(nth_error_nth (upd _ _ _)) by (apply nth_error_upd_eq; auto). erewrite !nth_error_nth by eauto. now rewrite (IH _ _ _ _ _ Hu Hl).
Qed.
Lemma unrelated_cases p q : unrelated p q -> fst p <> fst q \/ (fst p = fst q /\ unrel (snd p) (snd q)).
Proof.
  intros (H1 & H2 & H3). destruct (Nat.eq_dec (fst p) (fst q)) as [E|]; auto. right; split; auto. split; [|split].
  - intros E2. apply H1. destruct p, q; cbn in *; congruence.
  - intros k ks E2. apply H2. split; eauto.
  - intros k ks E2. apply H3. split; eauto.
Qed.
Lemma unrelated_sym p q : unrelated p q -> unrelated q p.
Proof. intros (H1 & H2 & H3). split; auto. Qed.
Lemma at_set_other st p q w u : unrelated p q -> at_ st p = Some u -> at_ (set_at st p w) q = at_ st q.
Proof.
  intros Hu H. apply at_inv in H as (v & Hn & Hl). unfold at_, set_at. apply unrelated_cases in Hu as [Hne|[E Hu]].
  - now rewrite nth_error_upd_ne.
  - rewrite <- E, nth_error_upd_eq by (eapply nth_lt; eauto). rewrite Hn. erewrite nth_error_nth by eauto. eapply lookup_other; eauto.
Qed.
Lemma set_comm st p q a b u : unrelated p q -> at_ st p = Some u -> set_at (set_at st p a) q b = set_at (set_at st q b) p a.
Proof.
  intros Hu H. apply at_inv in H as (v & Hn & Hl). unfold set_at. apply unrelated_cases in Hu as [Hne|[E Hu]].
  - rewrite upd_comm by auto.
    assert (forall (l : list (option tree)) i j a, i <> j -> nth i (upd l j a) None = nth i l None) as Hnn.
    { clear. induction l; intros [|i] [|j] b Hne; cbn; auto; try lia; apply IHl; lia. }
    rewrite !Hnn by auto. reflexivity.
  - rewrite <- E, !upd_upd. pose proof (nth_lt _ _ _ Hn). erewrite !(nth_error_nth (upd _ _ _)) by (apply nth_error_upd_eq; auto).
    erewrite !nth_error_nth by eauto. now rewrite (change_comm _ _ _ _ _ _ Hu Hl).
Qed.

(** Every holder has one owner. *)
Fixpoint cellat (h : list (option block)) (x : cell) (ks : list nat) : option cell :=
  match ks with
  | [] => Some x
  | k :: ks => match impl x with
               | PHeap b => match nth_error h b with
                            | Some (Some y) => match nth_error (caps y) k with Some z => cellat h z ks | None => None end
                            | _ => None
                            end
               | _ => None
               end
  end.
Lemma creps_nth h : forall xs vs fp, creps h xs vs fp -> forall k x, nth_error xs k = Some x ->
  exists v f1 f f2, crep h x v f /\ fp = f1 ++ f ++ f2.
Proof.
  induction 1 as [|x v f xs vs fs Hx Hxs IH]; intros [|k] w Hk; try discriminate.
  - injection Hk as <-. exists v, [], f, fs. auto.
  - destruct (IH _ _ Hk) as (v' & f1 & f' & f2 & Hc & ->). exists v', (f ++ f1), f', f2. rewrite <- app_assoc. auto.
Qed.
Lemma reach_in h : forall ks x v fp b z, crep h x v fp -> cellat h x ks = Some z -> impl z = PHeap b -> In b fp.
Proof.
  induction ks as [|k ks IH]; cbn; intros x v fp b z Hc Hr Hb.
  - injection Hr as ->. inversion Hc; subst; try discriminate. injection Hb as ->. apply in_or_app; right; now left.
  - destruct (impl x) as [| |d] eqn:E; try discriminate. inversion Hc; subst; try discriminate. injection E as ->. rewrite H in Hr. cbn [caps] in Hr.
    destruct (nth_error cs k) as [y|] eqn:Ek; try discriminate. destruct (creps_nth _ _ _ _ H0 _ _ Ek) as (v' & f1 & f & f2 & Hy & ->).
    apply in_or_app; left. apply in_or_app; right. apply in_or_app; left. eapply IH; eauto.
Qed.
Lemma in_reach h : (forall x v fp, crep h x v fp -> forall b, In b fp -> exists ks, cellat h x ks = Some (Cell (PHeap b) None)) /\
  (forall xs vs fp, creps h xs vs fp -> forall b, In b fp -> exists k x ks, nth_error xs k = Some x /\ cellat h x ks = Some (Cell (PHeap b) None)).
Proof.
  apply (crep_ind2 h (fun x v fp _ => forall b, In b fp -> exists ks, cellat h x ks = Some (Cell (PHeap b) None))
    (fun xs vs fp _ => forall b, In b fp -> exists k x ks, nth_error xs k = Some x /\ cellat h x ks = Some (Cell (PHeap b) None))); try contradiction.
  - intros b c cs vs fp Hb Hc IH d Hd. apply in_app_or in Hd as [Hd|[->|[]]].
    + destruct (IH _ Hd) as (k & x & ks & Hk & Hx). exists (k :: ks). cbn. rewrite Hb. cbn. now rewrite Hk.
    + now exists [].
  - intros x v f xs vs fs Hx IH1 Hxs IH2 d Hd. apply in_app_or in Hd as [Hd|Hd].
    + destruct (IH1 _ Hd) as [ks Hks]. exists 0, x, ks. auto.
    + destruct (IH2 _ Hd) as (k & y & ks & Hk & Hy). exists (S k), y, ks. auto.
Qed.
Lemma creps_nth2 h : forall xs vs fp, creps h xs vs fp -> forall j k x y, nth_error xs j = Some x -> nth_error xs k = Some y -> j <> k -> NoDup fp ->
  exists v f w g, crep h x v f /\ crep h y w g /\ forall b, In b f -> ~ In b g.
Proof.
  induction 1 as [|x v f xs vs fs Hx Hxs IH]; intros [|j] [|k] a b Hj Hk Hne Hd; try discriminate; try lia; apply NoDup_app_inv in Hd as (Hd1 & Hd2 & Hd3).
  - injection Hj as <-. cbn in Hk. destruct (creps_nth _ _ _ _ Hxs _ _ Hk) as (w & f1 & g & f2 & Hy & ->). exists v, f, w, g. split; auto. split; auto.
    intros d Hd Hg. apply (Hd3 _ Hd). rewrite !in_app_iff. auto.
  - injection Hk as <-. cbn in Hj. destruct (creps_nth _ _ _ _ Hxs _ _ Hj) as (w & f1 & g & f2 & Hy & ->). exists w, g, v, f. split; auto. split; auto.
    intros d Hd Hg. apply (Hd3 _ Hg). rewrite !in_app_iff. auto.
  - eapply IH; eauto.
Qed.
Lemma reach_uniq h : forall ks x v fp, crep h x v fp -> NoDup fp -> forall js b y z, cellat h x ks = Some y -> cellat h x js = Some z ->
  impl y = PHeap b -> impl z = PHeap b -> ks = js.
Proof.
  assert (Hroot : forall x v fp k ks b z, crep h x v fp -> NoDup fp -> impl x = PHeap b -> cellat h x (k :: ks) = Some z -> impl z = PHeap b -> False).
  { intros x v fp k ks b z Hc Hd Hx Hr Hz. inversion Hc; subst; try discriminate. injection Hx as ->. cbn in Hr. rewrite H in Hr. cbn in Hr.
    destruct (nth_error cs k) as [u|] eqn:Ek; try discriminate. destruct (creps_nth _ _ _ _ H0 _ _ Ek) as (v' & f1 & f & f2 & Hu & ->).
    apply NoDup_app_inv in Hd as (_ & _ & Hd). apply (Hd b); [|now left]. rewrite !in_app_iff. right; left. eapply reach_in; eauto. }
  induction ks as [|k ks IH]; intros x v fp Hc Hd [|j js] b y z Hy Hz Hyb Hzb; auto.
  - exfalso. cbn in Hy. injection Hy as ->. eapply Hroot; eauto.
  - exfalso. cbn in Hz. injection Hz as ->. eapply Hroot; eauto.
  - cbn in Hy, Hz. destruct (impl x) as [| |d] eqn:E; try discriminate. inversion Hc; subst; try discriminate. injection E as ->. rewrite H in Hy, Hz. cbn in Hy, Hz.
    destruct (nth_error cs k) as [u|] eqn:Ek; try discriminate. destruct (nth_error cs j) as [u'|] eqn:Ej; try discriminate. apply NoDup_app_inv in Hd as (Hd & _ & _).
    destruct (Nat.eq_dec k j) as [->|Hne].
    + f_equal. assert (u' = u) by congruence; subst u'. destruct (creps_nth _ _ _ _ H0 _ _ Ek) as (v' & f1 & f & f2 & Hu & ->).
      apply NoDup_app_inv in Hd as (_ & Hd & _). apply NoDup_app_inv in Hd as (Hd & _ & _). eapply IH; eauto.
    + exfalso. destruct (creps_nth2 _ _ _ _ H0 _ _ _ _ Ek Ej Hne Hd) as (v1 & g1 & v2 & g2 & Hu & Hu' & Hdis).
      apply (Hdis b); eapply reach_in; eauto.
Qed.
Lemma cellat_app h : forall ks js x y z, cellat h x ks = Some y -> cellat h y js = Some z -> cellat h x (ks ++ js) = Some z.
Proof.
  induction ks as [|k ks IH]; cbn; intros js x y z H1 H2; [congruence|]. destruct (impl x); try discriminate. destruct (nth_error h b) as [[u|]|]; try discriminate.
  destruct (nth_error (caps u) k); try discriminate. eauto.
Qed.
Lemma walk_cellat s : forall ks l g x y, walk s l ks = Ok g -> get s l = Ok x -> get s g = Ok y -> cellat (heap s) x ks = Some y.
Proof.
  induction ks as [|k ks IH]; cbn [walk cellat]; intros l g x y Hw Hl Hg.
  - injection Hw as ->. congruence.
  - rewrite Hl in Hw. cbn [bind] in Hw. destruct (impl x) as [| |b]; try discriminate.
    assert (Hz : exists z, get s (Cap b k) = Ok z).
    { destruct ks; cbn [walk] in Hw. { injection Hw as <-. eauto. } destruct (get s (Cap b k)); try discriminate. eauto. }
    destruct Hz as [z Hz]. pose proof Hz as Hz'. cbn in Hz. unfold live in Hz. destruct (nth_error (heap s) b) as [[u|]|]; try discriminate. cbn in Hz.
    unfold slot_get in Hz. destruct (nth_error (caps u) k) eqn:E; try discriminate. injection Hz as ->. eapply IH; eauto.
Qed.
Lemma walk_last s : forall ks l g, walk s l ks = Ok g -> (ks = [] /\ g = l) \/
  exists js k b l' x, ks = js ++ [k] /\ g = Cap b k /\ walk s l js = Ok l' /\ get s l' = Ok x /\ impl x = PHeap b.
Proof.
  induction ks as [|k ks IH]; cbn [walk]; intros l g Hw.
  - left. split; congruence.
  - right. destruct (get s l) as [x| |] eqn:E; try discriminate. cbn [bind] in Hw. destruct (impl x) as [| |b] eqn:Ei; try discriminate.
    destruct (IH _ _ Hw) as [[-> ->]|(js & j & d & l' & y & -> & -> & Hw' & Hl' & Hy)].
    + exists [], k, b, l, x. auto.
    + exists (k :: js), j, d, l', y. split; auto. split; auto. split; auto. cbn [walk]. rewrite E. cbn [bind]. now rewrite Ei.
Qed.
Lemma glob_owner s st fp : creps (heap s) (globs s) st fp -> NoDup fp -> forall n ks x y m js x' y' b,
  nth_error (globs s) n = Some x -> cellat (heap s) x ks = Some y -> impl y = PHeap b ->
  nth_error (globs s) m = Some x' -> cellat (heap s) x' js = Some y' -> impl y' = PHeap b -> n = m /\ ks = js.
Proof.
  intros Hc Hd n ks x y m js x' y' b Hn Hx Hy Hm Hx' Hy'. destruct (Nat.eq_dec n m) as [->|Hne].
  - split; auto. assert (x' = x) by congruence; subst. destruct (creps_nth _ _ _ _ Hc _ _ Hn) as (v' & f1 & f & f2 & Hu & ->).
    apply NoDup_app_inv in Hd as (_ & Hd & _). apply NoDup_app_inv in Hd as (Hd & _ & _). eapply reach_uniq; eauto.
  - exfalso. destruct (creps_nth2 _ _ _ _ Hc _ _ _ _ Hn Hm Hne Hd) as (v1 & g1 & v2 & g2 & Hu & Hu' & Hdis). apply (Hdis b); eapply reach_in; eauto.
Qed.
Lemma get_glob s n x : get s (Glob n) = Ok x -> nth_error (globs s) n = Some x.
Proof. cbn. unfold slot_get. destruct (nth_error (globs s) n); congruence. Qed.
Lemma walk_start s l ks g y : walk s l ks = Ok g -> get s g = Ok y -> exists x, get s l = Ok x.
Proof. destruct ks; cbn [walk]; intros H Hg. { injection H as ->. eauto. } destruct (get s l); try discriminate. eauto. Qed.

(** The holder of p is not among those of q, and p and q are in different places. *)
Lemma apart s st ts vs p q l g y yq v fm : Inv s st ts vs -> resolve s p = Ok l -> get s l = Ok y -> resolve s q = Ok g -> get s g = Ok yq ->
  crep (heap s) yq v fm -> p <> q -> (g <> l) /\ (~ inside p q -> forall b, In b (parent l) -> ~ In b fm).
Proof.
  intros (fp & ft & Hc & _ & Hd & _) Hp Hl Hq Hg Hy Hne. destruct p as [n ks], q as [m js]. unfold resolve in Hp, Hq. cbn [fst snd] in *.
  assert (HD : NoDup fp). { apply cnt_nodup. intros b. specialize (Hd b). lia. }
  destruct (walk_start _ _ _ _ _ Hp Hl) as [xn Hxn]. destruct (walk_start _ _ _ _ _ Hq Hg) as [xm Hxm].
  pose proof (get_glob _ _ _ Hxn) as Hxn'. pose proof (get_glob _ _ _ Hxm) as Hxm'. split.
  - intros ->. apply Hne. destruct (walk_last _ _ _ _ Hp) as [[-> ->]|(ks' & k & b & l' & x & -> & -> & Hw' & Hl' & Hx)];
      destruct (walk_last _ _ _ _ Hq) as [[-> E]|(js' & j & d & l'' & x' & -> & E & Hw'' & Hl'' & Hx')]; try discriminate.
    + congruence.
    + injection E as <- <-. pose proof (walk_cellat _ _ _ _ _ _ Hw' Hxn Hl') as C1. pose proof (walk_cellat _ _ _ _ _ _ Hw'' Hxm Hl'') as C2.
      destruct (glob_owner _ _ _ Hc HD _ _ _ _ _ _ _ _ _ Hxn' C1 Hx Hxm' C2 Hx'). congruence.
  - intros Hni b Hb Hbf. apply Hni. destruct (walk_last _ _ _ _ Hp) as [[-> ->]|(ks' & k & d & l' & x & -> & -> & Hw' & Hl' & Hx)]; [contradiction|].
    destruct Hb as [->|[]]. destruct (proj1 (in_reach (heap s)) _ _ _ Hy _ Hbf) as [r Hr].
    pose proof (walk_cellat _ _ _ _ _ _ Hw' Hxn Hl') as C1. pose proof (cellat_app _ _ _ _ _ _ (walk_cellat _ _ _ _ _ _ Hq Hxm Hg) Hr) as C2.
    destruct (glob_owner _ _ _ Hc HD _ _ _ _ _ _ _ _ _ Hxn' C1 Hx Hxm' C2 eq_refl) as [-> ->].
    split; auto. cbn. rewrite <- app_assoc. destruct r; cbn; eauto.
Qed.

(** Temporaries. *)
Lemma swap_temps s st ys vs y v ts tv : length ys = length vs -> Inv s st (ys ++ y :: ts) (vs ++ v :: tv) -> Inv s st (y :: ys ++ ts) (v :: vs ++ tv).
Proof.
  intros Hlen (fp & ft & H1 & H2 & H3 & H4).
  assert (Hk : nth_error (vs ++ v :: tv) (length vs) = Some v) by apply nth_mid.
  destruct (creps_split _ _ _ _ H2 _ _ Hk) as (xs1 & y' & xs2 & vs1 & vs2 & f1 & f & f2 & E1 & E2 & E3 & -> & Ha & Hb & Hcc).
  assert (ys = xs1 /\ y :: ts = y' :: xs2) as [-> E1'].
  { revert E1 E3 Hlen. clear. revert xs1 vs. induction ys as [|a ys IH]; intros [|b xs1] [|c vs] E1 E3 Hlen; cbn in *; try lia; auto.
    - injection E1 as -> E1. destruct (IH xs1 vs) as [-> ->]; auto. }
  injection E1' as <- <-.
  assert (vs = vs1 /\ v :: tv = v :: vs2) as [-> E2'].
  { pose proof (creps_length _ _ _ _ Ha) as Hl. assert (length vs = length vs1) as Hll by lia. revert E2 Hll. clear. revert vs1. induction vs as [|a ys IH]; intros [|b xs1] E1 Hl; cbn in *; try lia; auto.
    - injection E1 as -> E1. destruct (IH xs1) as [-> ->]; auto. }
  injection E2' as <-. exists fp, (f ++ f1 ++ f2). split; auto. split.
  - constructor; auto. clear - Ha Hcc. induction Ha; cbn; auto. rewrite <- app_assoc. now constructor.
  - split; [intros b; specialize (H3 b)|intros b z Hz; specialize (H4 b z Hz)]; rewrite !cnt_app in *; lia.
Qed.

(** destroy() and zap() *)
Lemma destroy_step s st ts vs p w : Inv s st ts vs -> at_ st p = Some w -> exists n l s1 s0 i y,
  resolve s p = Ok l /\ get s l = Ok y /\ impl y = i /\ (forall fuel, n <= fuel -> destroy fuel s l = Ok s1) /\ get s1 l = Ok (Cell i None) /\
  put s1 l nul = Ok s0 /\ Inv s0 (set_at st p None) ts vs /\ sub s0 s /\ (w = None -> s1 = s0) /\
  (exists fm fl fr, crep (heap s) y w fm /\ (forall b, In b fm -> nth_error (heap s1) b = Some None) /\
    hole (heap s1) None (globs s1) (fst p) (snd p) st l fl fr).
Proof.
  intros HI Hp. destruct (open_ _ _ _ _ _ _ HI Hp) as (l & y & fl & fm & fr & ft & Hh & Hy & Ht & Hd & Hlive & Hr & Hg).
  destruct (destroy_ok (heap s) _ _ _ Hy) as [n Hn]. set (s' := World (globs s) (kills fm (heap s))).
  assert (Hoff : forall b, In b (fl ++ fr ++ ft) -> nth_error (heap s') b = nth_error (heap s) b).
  { intros b Hb. apply kills_other. rewrite cnt_in in *. rewrite !cnt_app in Hb. specialize (Hd b). lia. }
  assert (Hh' : hole (heap s') None (globs s') (fst p) (snd p) st l fl fr).
  { eapply hole_frame; eauto. intros b Hb. apply Hoff. rewrite !in_app_iff in *. tauto. }
  assert (HD : NoDup (fl ++ fr)). { apply cnt_nodup. intros b. rewrite cnt_app. specialize (Hd b). lia. }
  destruct (hole_put _ _ _ _ _ _ _ _ _ Hh' s' (Cell (impl y) None) eq_refl eq_refl HD) as (s1 & xs1 & Hp1 & Ho1 & Hh1 & Hg1 & Hl1 & _). { discriminate. }
  cbn in Ho1. subst xs1.
  destruct (hole_put _ _ _ _ _ _ _ _ _ Hh1 s1 nul eq_refl eq_refl HD) as (s0 & xs0 & Hp0 & Ho0 & Hh0 & Hg0 & Hl0 & _). { discriminate. }
  cbn in Ho0. subst xs0.
  assert (Hpar : forall b, In b (parent l) -> In b fr). { intros b Hb. destruct (hole_parent _ _ _ _ _ _ _ _ _ Hh b Hb); [discriminate|auto]. }
  assert (Hdead : forall b, In b fm -> nth_error (heap s1) b = Some None).
  { intros b Hb. destruct Hl1 as (_ & Hl1 & _). rewrite Hl1.
    - apply kills_dead; auto. eapply crep_lt; eauto.
    - intros Hx. apply Hpar in Hx. rewrite cnt_in in *. specialize (Hd b). lia. }
  exists n, l, s1, s0, (impl y), y. repeat (split; [assumption || reflexivity|]). split.
  { intros fuel Hf. unfold destroy. rewrite Hg. cbn [bind]. rewrite Hn; auto. intros b _; reflexivity.
    apply cnt_nodup. intros b. specialize (Hd b). lia. }
  repeat (split; [assumption|]). split; [|split; [|split]].
  - eapply close_ with (l := l) (y := nul) (fl := fl) (fm := []) (fr := fr) (ft := ft); eauto.
    + constructor.
    + eapply creps_frame; eauto. intros b Hb. destruct Hl1 as (_ & Hl1 & _). destruct Hl0 as (_ & Hl0 & _).
      assert (~ In b (parent l)). { intros Hx. apply Hpar in Hx. rewrite cnt_in in *. specialize (Hd b). lia. }
      rewrite Hl0, Hl1 by auto. apply Hoff. rewrite !in_app_iff. auto.
    + intros b. cbn. specialize (Hd b). lia.
    + intros b y0 Hb. assert (exists y1, nth_error (heap s') b = Some (Some y1)) as [y1 Hb1].
      { destruct Hl1 as (_ & _ & Hl1). destruct Hl0 as (_ & _ & Hl0). apply Hl1, Hl0. eauto. }
      unfold s' in Hb1. cbn in Hb1. assert (Hnf : ~ In b fm). { intros Hi. rewrite kills_dead in Hb1; auto; [discriminate|]. eapply crep_lt; eauto. }
      rewrite kills_other in Hb1 by auto. specialize (Hlive b y1 Hb1). rewrite cnt_in in Hnf. cbn. lia.
  - eapply sub_trans with s'.
    + intros l' x Hx Hi. destruct (loc_eq_dec l' l) as [->|Hne].
      * rewrite Hg0 in Hx. injection Hx as <-. now destruct Hi.
      * rewrite (get_put_other _ _ _ _ _ Hp0 Hne), (get_put_other _ _ _ _ _ Hp1 Hne) in Hx. auto.
    + destruct s. apply kills_sub.
  - intros ->. inversion Hy; subst. cbn in Hp1. pose proof (put_put _ _ _ _ nul Hp1) as Hpp. unfold nul in Hpp at 2. rewrite Hp1 in Hpp. congruence.
  - exists fm, fl, fr. auto.
Qed.
Lemma zap_step s st ts vs p w : Inv s st ts vs -> at_ st p = Some w -> exists n l s0,
  resolve s p = Ok l /\ (forall fuel, n <= fuel -> zap fuel s l = Ok s0) /\ Inv s0 (set_at st p None) ts vs.
Proof.
  intros HI Hp. destruct (destroy_step _ _ _ _ _ _ HI Hp) as (n & l & s1 & s0 & i & y & Hr & _ & _ & Hd & Hg & Hp0 & HI0 & _).
  exists n, l, s0. split; auto. split; auto. intros fuel Hf. unfold zap. rewrite Hd by auto. cbn [bind]. rewrite Hg. exact Hp0.
Qed.

(** Taking a Function out and putting one in. *)
Lemma extract s st ts vs p w : Inv s st ts vs -> at_ st p = Some w -> exists l y s',
  resolve s p = Ok l /\ get s l = Ok y /\ put s l nul = Ok s' /\ Inv s' (set_at st p None) (y :: ts) (w :: vs).
Proof.
  intros HI Hp. destruct (open_ _ _ _ _ _ _ HI Hp) as (l & y & fl & fm & fr & ft & Hh & Hy & Ht & Hd & Hlive & Hr & Hg).
  assert (HD : NoDup (fl ++ fr)). { apply cnt_nodup. intros b. rewrite cnt_app. specialize (Hd b). lia. }
  destruct (hole_put _ _ _ _ _ _ _ _ _ Hh s nul eq_refl eq_refl HD) as (s1 & xs1 & Hp1 & Ho1 & Hh1 & Hg1 & Hl1 & _). { discriminate. }
  cbn in Ho1. subst xs1. exists l, y, s1. repeat (split; [assumption|]). destruct Hl1 as (_ & Hl1 & Hl2).
  assert (Hpar : forall b, In b (parent l) -> In b fr). { intros b Hb. destruct (hole_parent _ _ _ _ _ _ _ _ _ Hh b Hb); [discriminate|auto]. }
  assert (Hoff : same_on (fm ++ ft) (heap s) (heap s1)).
  { intros b Hb. apply Hl1. intros Hx. apply Hpar in Hx. rewrite cnt_in in *. rewrite cnt_app in Hb. specialize (Hd b). lia. }
  eapply close_ with (fm := []) (ft := fm ++ ft); eauto.
  - constructor.
  - constructor; [eapply crep_frame|eapply creps_frame]; eauto; intros b Hb; apply Hoff, in_or_app; auto.
  - intros b. rewrite cnt_app. cbn. specialize (Hd b). lia.
  - intros b z Hz. rewrite cnt_app. cbn. destruct (proj1 (Hl2 b)) as [z' Hz']; eauto. specialize (Hlive b z' Hz'). lia.
Qed.
Lemma insert s st ts vs p y v : Inv s st (y :: ts) (v :: vs) -> at_ st p = Some None -> exists l s',
  resolve s p = Ok l /\ get s l = Ok nul /\ put s l y = Ok s' /\ Inv s' (set_at st p v) ts vs.
Proof.
  intros HI Hp. destruct (open_ _ _ _ _ _ _ HI Hp) as (l & y0 & fl & fm & fr & ft & Hh & Hy & Ht & Hd & Hlive & Hr & Hg).
  inversion Hy; subst. inversion Ht; subst.
  assert (HD : NoDup (fl ++ fr)). { apply cnt_nodup. intros b. rewrite cnt_app. specialize (Hd b). lia. }
  destruct (hole_put _ _ _ _ _ _ _ _ _ Hh s y eq_refl eq_refl HD) as (s1 & xs1 & Hp1 & Ho1 & Hh1 & Hg1 & Hl1 & _). { discriminate. }
  cbn in Ho1. subst xs1. exists l, s1. repeat (split; [assumption|]). destruct Hl1 as (_ & Hl1 & Hl2).
  assert (Hpar : forall b, In b (parent l) -> In b fr). { intros b Hb. destruct (hole_parent _ _ _ _ _ _ _ _ _ Hh b Hb); [discriminate|auto]. }
  assert (Hoff : same_on (f ++ fs) (heap s) (heap s1)).
  { intros b Hb. apply Hl1. intros Hx. apply Hpar in Hx. rewrite cnt_in in *. specialize (Hd b). lia. }
  eapply close_ with (fm := f) (ft := fs); eauto.
  - eapply crep_frame; eauto; intros b Hb; apply Hoff, in_or_app; auto.
  - eapply creps_frame; eauto; intros b Hb; apply Hoff, in_or_app; auto.
  - intros b. specialize (Hd b). rewrite cnt_app in Hd. cbn in Hd. lia.
  - intros b z Hz. destruct (proj1 (Hl2 b)) as [z' Hz']; eauto. specialize (Hlive b z' Hz'). rewrite cnt_app in Hlive. cbn in Hlive. lia.
Qed.
Lemma look s st ts vs p w : Inv s st ts vs -> at_ st p = Some w -> exists l y fm, resolve s p = Ok l /\ get s l = Ok y /\ crep (heap s) y w fm.
Proof. intros HI Hp. destruct (open_ _ _ _ _ _ _ HI Hp) as (l & y & fl & fm & fr & ft & Hh & Hy & Ht & Hd & Hlive & Hr & Hg). eauto 6. Qed.

(** New holders. *)
Lemma seq_live (b : nat) (h new : list (option block)) y : nth_error (h ++ new) b = Some (Some y) -> nth_error h b = Some (Some y) \/ length h <= b < length h + length new.
Proof.
  intros H. destruct (Nat.lt_ge_cases b (length h)).
  - left. now rewrite nth_error_app1 in H.
  - right. apply nth_lt in H. rewrite app_length in H. lia.
Qed.
Lemma add_temps s st ts vs new ys ws : Inv s st ts vs -> creps (heap s ++ new) ys ws (seq (length (heap s)) (length new)) ->
  Inv (World (globs s) (heap s ++ new)) st (ys ++ ts) (ws ++ vs).
Proof.
  intros (fp & ft & H1 & H2 & H3 & H4) Hy. exists fp, (seq (length (heap s)) (length new) ++ ft). cbn [heap globs].
  assert (Hlt : forall b, cnt b fp + cnt b ft >= 1 -> b < length (heap s)).
  { intros b Hb. destruct (Nat.eq_dec (cnt b fp) 0); [eapply creps_lt with (f := ft)|eapply creps_lt with (f := fp)]; eauto; apply cnt_in; lia. }
  assert (Hf : forall f, (forall b, In b f -> b < length (heap s)) -> same_on f (heap s) (heap s ++ new)) by (intros; now apply same_on_app).
  split; [|split; [|split]].
  - eapply creps_frame; eauto. apply Hf. intros b Hb. eapply creps_lt with (f := fp); eauto.
  - assert (Ht : creps (heap s ++ new) ts vs ft). { eapply creps_frame; eauto. apply Hf. intros b Hb. eapply creps_lt with (f := ft); eauto. }
    clear - Hy Ht. induction Hy; cbn; auto. rewrite <- app_assoc. now constructor.
  - intros b. rewrite cnt_app. specialize (H3 b). specialize (Hlt b). pose proof (cnt_seq b (length (heap s)) (length new)). lia.
  - intros b y Hb. rewrite cnt_app. pose proof (cnt_seq b (length (heap s)) (length new)). apply seq_live in Hb as [Hb|Hb]; [specialize (H4 b y Hb); lia|lia].
Qed.
Lemma copies_block h c ys vs new : creps (h ++ new) ys vs (seq (length h) (length new)) ->
  creps (h ++ new ++ [Some (Block c ys)]) [Cell (PHeap (length h + length new)) None] [Some (Node c vs)] (seq (length h) (length (new ++ [Some (Block c ys)]))).
Proof.
  intros H. rewrite app_length, seq_app. cbn [length seq].
  change (seq (length h) (length new) ++ [length h + length new]) with (seq (length h) (length new) ++ [length h + length new]).
  replace (seq (length h) (length new) ++ [length h + length new]) with ((seq (length h) (length new) ++ [length h + length new]) ++ []) by apply app_nil_r.
  constructor; [|constructor]. constructor 3 with (cs := ys).
  - rewrite app_assoc, <- app_length. apply nth_app_here.
  - rewrite app_assoc. eapply creps_frame; eauto. apply same_on_app. intros d Hd. eapply creps_lt; eauto.
Qed.
Lemma single h y v f : crep h y v f -> creps h [y] [v] f.
Proof. intros H. rewrite <- (app_nil_r f). constructor; auto. constructor. Qed.

(** A new Function from the one at q, in a world s1 that differs from s0 at one place. *)
Definition kind (m : mode) (v : option tree) : option tree := match m with NonConst => Some (Node wrapper [v]) | _ => v end.
Lemma take_copy s0 st ts vs yq v fm m : Inv s0 st ts vs -> crep (heap s0) yq v fm -> m <> Moved ->
  exists n new y, (forall s1 fuel g, n <= fuel -> get s1 g = Ok yq -> length (heap s1) = length (heap s0) -> same_on fm (heap s0) (heap s1) ->
    take fuel s1 g m = Ok (World (globs s1) (heap s1 ++ new), y)) /\
    Inv (World (globs s0) (heap s0 ++ new)) st (y :: ts) (kind m v :: vs).
Proof.
  intros HI Hy Hm. destruct (proj1 (copy_all (heap s0)) _ _ _ Hy) as [n Hn]. destruct (Hn (length (heap s0))) as (new & y & Hc).
  destruct (Hc (heap s0) eq_refl) as [_ Hr]. { intros b _; reflexivity. }
  destruct m; [| |congruence].
  - exists n, new, y. split.
    + intros s1 fuel g Hf Hg Hl Hs. unfold take. rewrite Hg. cbn [bind]. destruct (Hc (heap s1) Hl Hs) as [Hcp _]. now rewrite Hcp.
    + apply (add_temps _ _ _ _ _ [y] [v]); auto. now apply single.
  - exists n, (new ++ [Some (Block wrapper [y])]), (Cell (PHeap (length (heap s0) + length new)) None). split.
    + intros s1 fuel g Hf Hg Hl Hs. unfold take. rewrite Hg. cbn [bind]. destruct (Hc (heap s1) Hl Hs) as [Hcp _]. rewrite Hcp by auto. cbn [bind].
      now rewrite app_length, Hl, <- app_assoc.
    + apply (add_temps _ _ _ _ _ [_] [_]); auto. apply copies_block. now apply single.
Qed.

(** Assignments. *)
Lemma source s1 s0 st ts vs p q l u v : Inv s0 st ts vs -> put s1 l nul = Ok s0 -> resolve s0 p = Ok l -> at_ st p = Some u -> at_ st q = Some v ->
  unrelated p q \/ s1 = s0 ->
  exists g yq fm, resolve s0 q = Ok g /\ get s0 g = Ok yq /\ get s1 g = Ok yq /\ crep (heap s0) yq v fm /\ same_on fm (heap s0) (heap s1) /\ (unrelated p q -> g <> l).
Proof.
  intros HI Hp Hr Hu Hv Hrel. destruct (look _ _ _ _ _ _ HI Hv) as (g & yq & fm & Hq & Hg & Hy).
  exists g, yq, fm. split; auto. split; auto.
  assert (Ha : unrelated p q -> g <> l /\ (forall b, In b (parent l) -> ~ In b fm)).
  { intros (H1 & H2 & H3). destruct (apart _ _ _ _ p q l g nul yq v fm HI) as [Ha Hb]; auto. eapply get_put_same; eauto. }
  destruct Hrel as [Hrel| ->].
  - destruct (Ha Hrel) as [Hne Hpar]. split. { rewrite <- (get_put_other _ _ _ _ _ Hp Hne). auto. } split; auto. split.
    + intros b Hb. destruct (put_like _ _ _ _ Hp) as (_ & Hl & _). symmetry. apply Hl. intros Hx. eapply Hpar; eauto.
    + intros _; auto.
  - split; auto. split; auto. split. { intros b _; reflexivity. } intros H; apply Ha; auto.
Qed.
Lemma emptied s st ts vs p w s0 l : Inv s0 (set_at st p None) ts vs -> sub s0 s -> resolve s p = Ok l -> at_ st p = Some w -> resolve s0 p = Ok l.
Proof.
  intros HI Hs Hr Hp. destruct (look _ _ _ _ _ _ HI (at_set_eq _ _ None _ Hp)) as (l' & y & fm & Hr' & _).
  unfold resolve in *. pose proof (sub_walk _ _ Hs _ _ _ Hr') as E. congruence.
Qed.
Lemma at_after st p q u v : at_ st p = Some u -> at_ st q = Some v -> unrelated p q \/ u = None -> at_ (set_at st p None) q = Some v.
Proof. intros Hp Hq [H| ->]. { rewrite <- Hq. eapply at_set_other; eauto. } rewrite (set_at_same _ _ _ Hp). auto. Qed.

Lemma place_ok s l i y : get s l = Ok (Cell i None) -> place s l y = put s l y.
Proof. intros H. unfold place. now rewrite H. Qed.

Lemma add_plain s st ts vs y v : Inv s st ts vs -> crep (heap s) y v [] -> Inv s st (y :: ts) (v :: vs).
Proof. intros (fp & ft & A & B & C & D) Hy. exists fp, ([] ++ ft). split; [exact A|]. split; [constructor; assumption|]. split; assumption. Qed.

Section Steps.
Variable small : nat -> bool.
Lemma assign_copy s st ts vs p m q u v : Inv s st ts vs -> at_ st p = Some u -> at_ st q = Some v -> m <> Moved -> unrelated p q \/ u = None ->
  exists n s', (forall fuel, n <= fuel -> step small fuel s (Assign p m q) = Ok (s', [])) /\ Inv s' (set_at st p (kind m v)) ts vs.
Proof.
  intros HI Hp Hq Hm Hrel. destruct (destroy_step _ _ _ _ _ _ HI Hp) as (n1 & l & s1 & s0 & i & y0 & Hr & Hg0 & Hi & Hd & Hg & Hp0 & HI0 & Hsub & He & _).
  pose proof (emptied _ _ _ _ _ _ _ _ HI0 Hsub Hr Hp) as Hr0. pose proof (at_set_eq _ _ None _ Hp) as Hp'. pose proof (at_after _ _ _ _ _ Hp Hq Hrel) as Hq'.
  destruct (source _ _ _ _ _ _ _ _ _ _ HI0 Hp0 Hr0 Hp' Hq') as (g & yq & fm & Hrq & Hgq & Hgq1 & Hy & Hs & _). { destruct Hrel; auto. }
  destruct (take_copy _ _ _ _ _ _ _ m HI0 Hy Hm) as (n2 & new & y & Ht & HI2).
  destruct (insert _ _ _ _ _ _ _ HI2 Hp') as (l' & s' & Hr' & Hgl & Hpl & HI').
  assert (l' = l) as ->. { unfold resolve in *. rewrite (walk_app _ _ _ _ _ Hr0) in Hr'. congruence. }
  exists (max n1 n2), s'. rewrite (set_set _ _ _ _ _ Hp) in HI'. split; auto.
  intros fuel Hf. cbn [step]. rewrite Hr. cbn [bind].
  assert (resolve s q = Ok g) as ->. { unfold resolve in *. eapply sub_walk; eauto. } cbn [bind]. rewrite Hd by lia. cbn [bind].
  assert (Htk : take fuel s1 g m = Ok (World (globs s1) (heap s1 ++ new), y)).
  { apply Ht; auto; [lia|]. destruct (put_like _ _ _ _ Hp0) as (Hl & _). auto. }
  assert (Hpp : place (World (globs s1) (heap s1 ++ new)) l y = Ok s').
  { rewrite (place_ok _ _ i) by (now apply get_app). rewrite (put_app _ _ _ _ _ _ Hp0). auto. }
  destruct m; [| |congruence]; rewrite Htk; cbn [bind]; rewrite Hpp; reflexivity.
Qed.
Lemma assign_move s st ts vs p q u v : Inv s st ts vs -> at_ st p = Some u -> at_ st q = Some v -> unrelated p q ->
  exists n s', (forall fuel, n <= fuel -> step small fuel s (Assign p Moved q) = Ok (s', [])) /\ Inv s' (set_at (set_at st q None) p v) ts vs.
Proof.
  intros HI Hp Hq Hrel. destruct (destroy_step _ _ _ _ _ _ HI Hp) as (n1 & l & s1 & s0 & i & y0 & Hr & Hg0 & Hi & Hd & Hg & Hp0 & HI0 & Hsub & He & _).
  pose proof (emptied _ _ _ _ _ _ _ _ HI0 Hsub Hr Hp) as Hr0. pose proof (at_set_eq _ _ None _ Hp) as Hp'. pose proof (at_after _ _ _ _ _ Hp Hq (or_introl Hrel)) as Hq'.
  destruct (source _ _ _ _ _ _ _ _ _ _ HI0 Hp0 Hr0 Hp' Hq' (or_introl Hrel)) as (g & yq & fm & Hrq & Hgq & Hgq1 & Hy & Hs & Hne). specialize (Hne Hrel).
  assert (Hrsq : resolve s q = Ok g). { unfold resolve in *. eapply sub_walk; eauto. }
  pose proof (get_put_same _ _ _ _ Hp0) as Hgl0.
  inversion Hy; subst.
  - exists n1, s0. split.
    + intros fuel Hf. cbn [step]. rewrite Hr. cbn [bind]. rewrite Hrsq. cbn [bind]. rewrite Hd by lia. cbn [bind]. unfold move. rewrite Hgq1. cbn [bind impl nul].
      rewrite Hg. cbn [bind buf]. unfold nul in Hp0. rewrite Hp0. reflexivity.
    + now rewrite (set_at_same _ _ _ Hq).
  - assert (HIt : Inv s0 (set_at st p None) (Cell PIn (Some c) :: ts) (Some (Node c []) :: vs)).
    { apply add_plain; auto; constructor. }
    destruct (insert _ _ _ _ _ _ _ HIt Hp') as (l' & s2 & Hr' & _ & Hpl & HI2). assert (l' = l) as -> by congruence.
    rewrite (set_set _ _ _ _ _ Hp) in HI2.
    assert (Hq2 : at_ (set_at st p (Some (Node c []))) q = Some (Some (Node c []))). { rewrite <- Hq. eapply at_set_other; eauto. }
    destruct (zap_step _ _ _ _ _ _ HI2 Hq2) as (n2 & g' & s3 & Hr3 & Hz & HI3).
    assert (g' = g) as ->. { unfold resolve in *. rewrite (sub_walk _ _ (sub_put _ _ _ _ Hgl0 Hpl) _ _ _ Hrq) in Hr3. congruence. }
    exists (max n1 n2), s3. split.
    + intros fuel Hf. cbn [step]. rewrite Hr. cbn [bind]. rewrite Hrsq. cbn [bind]. rewrite Hd by lia. cbn [bind]. unfold move. rewrite Hgq1. cbn [bind impl buf].
      rewrite (place_ok _ _ _ _ Hg). rewrite (put_put _ _ _ _ _ Hp0) in Hpl. rewrite Hpl. cbn [bind]. rewrite Hz by lia. reflexivity.
    + rewrite (set_comm _ _ _ _ _ _ Hrel Hp) in HI3. auto.
  - destruct (extract _ _ _ _ _ _ HI0 Hq') as (g' & yq' & sA & Hrg & Hgg & HpA & HIA). assert (g' = g) as -> by congruence. assert (yq' = Cell (PHeap b) None) as -> by congruence.
    assert (HpA' : at_ (set_at (set_at st p None) q None) p = Some None).
    { rewrite <- Hp'. eapply at_set_other; eauto. now apply unrelated_sym. }
    destruct (insert _ _ _ _ _ _ _ HIA HpA') as (l' & sB & Hr' & _ & HpB & HIB).
    assert (l' = l) as ->. { unfold resolve in *. pose proof (sub_walk _ _ (put_nul_sub _ _ _ HpA) _ _ _ Hr'). congruence. }
    destruct (put_comm _ _ _ _ _ _ _ (not_eq_sym Hne) HpA HpB) as (sC & HpC & HpD).
    exists n1, sB. split.
    + intros fuel Hf. cbn [step]. rewrite Hr. cbn [bind]. rewrite Hrsq. cbn [bind]. rewrite Hd by lia. cbn [bind]. unfold move. rewrite Hgq1. cbn [bind impl buf].
      rewrite (place_ok _ _ _ _ Hg). rewrite (put_put _ _ _ _ _ Hp0) in HpC. rewrite HpC. cbn [bind].
      rewrite (get_put_other _ _ _ _ _ HpC Hne). rewrite Hgq1. cbn [bind buf]. unfold nul in HpD. rewrite HpD. reflexivity.
    + rewrite <- (set_comm _ _ _ _ _ _ (unrelated_sym _ _ Hrel) Hq'), (set_set _ _ _ _ _ Hp) in HIB || idtac.
      rewrite (set_comm _ _ _ None None _ Hrel Hp) in HIB.
      rewrite (set_set (set_at st q None) p None (Some (Node c vs0)) u) in HIB; auto.
      rewrite <- Hp. eapply at_set_other; eauto. now apply unrelated_sym.
Qed.

(** The captures of a closure. *)
Lemma take_any s st ts vs q m v : Inv s st ts vs -> at_ st q = Some v -> exists n g s' y,
  resolve s q = Ok g /\ (forall fuel, n <= fuel -> take fuel s g m = Ok (s', y)) /\ Inv s' (fst (taken st q m v)) (y :: ts) (snd (taken st q m v) :: vs).
Proof.
  intros HI Hq. destruct (look _ _ _ _ _ _ HI Hq) as (g & yq & fm & Hr & Hg & Hy). destruct m.
  1,2: destruct (take_copy _ _ _ _ _ _ _ Const HI Hy) as (n & new & y & Ht & HI2) || idtac; [discriminate|].
  - exists n, g, (World (globs s) (heap s ++ new)), y. split; auto. split; auto. intros fuel Hf. apply Ht; auto; intros b _; reflexivity.
  - clear Ht HI2 new y n. destruct (take_copy _ _ _ _ _ _ _ NonConst HI Hy) as (n & new & y & Ht & HI2); [discriminate|].
    exists n, g, (World (globs s) (heap s ++ new)), y. split; auto. split; auto. intros fuel Hf. apply Ht; auto; intros b _; reflexivity.
  - inversion Hy; subst.
    + exists 0, g, s, nul. split; auto. split. { intros. unfold take. now rewrite Hg. }
      cbn [taken fst snd]. rewrite (set_at_same _ _ _ Hq). apply add_plain; auto; constructor.
    + destruct (zap_step _ _ _ _ _ _ HI Hq) as (n & g' & s' & Hr' & Hz & HI'). assert (g' = g) as -> by congruence.
      exists n, g, s', (Cell PIn (Some c)). split; auto. split. { intros. unfold take. rewrite Hg. cbn [bind impl buf]. now rewrite Hz. }
      cbn [taken fst snd]. apply add_plain; auto; constructor.
    + destruct (extract _ _ _ _ _ _ HI Hq) as (g' & y' & s' & Hr' & Hg' & Hp & HI'). assert (g' = g) as -> by congruence. assert (y' = Cell (PHeap b) None) as -> by congruence.
      exists 0, g, s', (Cell (PHeap b) None). split; auto. split. { intros. unfold take. rewrite Hg. cbn [bind impl buf]. unfold nul in Hp. now rewrite Hp. } auto.
Qed.
Lemma captures_ok st qs st' ws : takes st qs st' ws -> forall s ts vs, Inv s st ts vs -> exists n s' ys,
  (forall fuel, n <= fuel -> captures fuel s qs = Ok (s', ys)) /\ Inv s' st' (ys ++ ts) (ws ++ vs) /\ length ys = length ws.
Proof.
  induction 1 as [st|st q m v qs st' ws Hq Ht IH]; intros s ts vs HI.
  - exists 0, s, []. auto.
  - destruct (take_any _ _ _ _ _ m _ HI Hq) as (n1 & g & s1 & y & Hr & Htk & HI1).
    destruct (IH _ _ _ HI1) as (n2 & s2 & ys & Hc & HI2 & Hl). exists (max n1 n2), s2, (y :: ys). split; [|split].
    + intros fuel Hf. cbn [captures]. rewrite Hr. cbn [bind]. rewrite Htk by lia. cbn [bind]. rewrite Hc by lia. reflexivity.
    + cbn [app]. apply swap_temps; auto.
    + cbn. auto.
Qed.
Lemma drop_temps s st ts vs : Inv s st ts vs -> exists n h, (forall fuel, n <= fuel -> destroy_cells fuel (heap s) ts = Ok h) /\ Inv (World (globs s) h) st [] [].
Proof.
  intros (fp & ft & A & B & C & D). destruct (destroys_ok (heap s) _ _ _ B) as [n Hn]. exists n, (kills ft (heap s)). split.
  - intros. apply Hn; [auto|intros b _; reflexivity|]. apply cnt_nodup. intros b. specialize (C b). lia.
  - exists fp, []. cbn [heap globs]. split; [|split; [constructor|split]].
    + eapply creps_frame; eauto. intros b Hb. apply kills_other. rewrite cnt_in in *. specialize (C b). lia.
    + intros b. specialize (C b). cbn. lia.
    + intros b y Hb. assert (~ In b ft). { intros Hi. rewrite kills_dead in Hb; auto; [discriminate|]. eapply creps_lt; eauto. }
      rewrite kills_other in Hb by auto. specialize (D b y Hb). rewrite cnt_in in H. cbn. lia.
Qed.
Lemma set_step s st p c qs st1 ws u : Inv s st [] [] -> takes st qs st1 ws -> at_ st1 p = Some u ->
  exists n s', (forall fuel, n <= fuel -> step small fuel s (Set_ p c qs) = Ok (s', [])) /\ Inv s' (set_at st1 p (Some (Node c ws))) [] [].
Proof.
  intros HI Ht Hp. destruct (captures_ok _ _ _ _ Ht _ _ _ HI) as (n1 & sa & ys & Hc & HIa & Hl). rewrite !app_nil_r in HIa.
  destruct (destroy_step _ _ _ _ _ _ HIa Hp) as (n2 & l & s1 & s0 & i & y0 & Hr & Hg0 & Hi & Hd & Hg & Hp0 & HI0 & Hsub & He & _).
  pose proof (emptied _ _ _ _ _ _ _ _ HI0 Hsub Hr Hp) as Hr0. pose proof (at_set_eq _ _ None _ Hp) as Hp'.
  assert (Hnew : exists n3 new y, (forall fuel, n3 <= fuel -> match qs with
       | [] => if small c then Ok (heap s1, Cell PIn (Some c)) else Ok (heap s1 ++ [Some (Block c [])], Cell (PHeap (length (heap s1))) None)
       | _ => do (h, cs) <- copy_cells fuel (heap s1) ys; Ok (h ++ [Some (Block c cs)], Cell (PHeap (length h)) None) end = Ok (heap s1 ++ new, y)) /\
     Inv (World (globs s0) (heap s0 ++ new)) (set_at st1 p None) (y :: ys) (Some (Node c ws) :: ws)).
  { destruct (put_like _ _ _ _ Hp0) as (Hlen & Hlk & _).
    destruct qs as [|qm qs].
    - inversion Ht; subst. destruct ys; [|discriminate]. destruct (small c).
      + exists 0, [], (Cell PIn (Some c)). rewrite !app_nil_r. split; auto. destruct s0 as [g0 h0]. cbn [globs heap].
        apply add_plain; auto; constructor.
      + exists 0, [Some (Block c [])], (Cell (PHeap (length (heap s0))) None). split; [now rewrite Hlen|].
        apply (add_temps _ _ _ _ _ [_] [_]); auto.
        pose proof (copies_block (heap s0) c [] [] []) as Hb. cbn in Hb. rewrite Nat.add_0_r in Hb. apply Hb. constructor.
    - destruct (open_ _ _ _ _ _ _ HI0 Hp') as (l' & y' & fl & fm & fr & ft & Hh & Hy & B & Hdd & _ & Hr' & _). assert (l' = l) as -> by congruence. destruct (proj2 (copy_all (heap s0)) _ _ _ B) as [n Hn]. destruct (Hn (length (heap s0))) as (new & cs & Hcc).
      destruct (Hcc (heap s0) eq_refl) as [_ Hrep]. { intros b _; reflexivity. }
      destruct (Hcc (heap s1)) as [Hcp _]. { auto. }
      { intros b Hb. symmetry. apply Hlk. intros Hx.
        destruct (hole_parent _ _ _ _ _ _ _ _ _ Hh b Hx) as [|Hx']; [discriminate|].
        rewrite cnt_in in *. specialize (Hdd b). lia. }
      exists n, (new ++ [Some (Block c cs)]), (Cell (PHeap (length (heap s0) + length new)) None). split.
      + intros fuel Hf. rewrite Hcp by auto. cbn [bind]. rewrite app_length, <- Hlen, <- app_assoc. reflexivity.
      + apply (add_temps _ _ _ _ _ [_] [_]); auto. now apply copies_block. }
  destruct Hnew as (n3 & new & y & Hnew & HI2).
  destruct (insert _ _ _ _ _ _ _ HI2 Hp') as (l' & s3 & Hr' & Hgl & Hpl & HI3).
  assert (l' = l) as ->. { unfold resolve in *. rewrite (walk_app _ _ _ _ _ Hr0) in Hr'. congruence. }
  destruct (drop_temps _ _ _ _ HI3) as (n4 & h4 & Hdr & HI4).
  exists (max (max n1 n2) (max n3 n4)), (World (globs s3) h4). rewrite (set_set _ _ _ _ _ Hp) in HI4. split; auto.
  intros fuel Hf. cbn [step]. rewrite Hc by lia. cbn [bind]. rewrite Hr. cbn [bind]. rewrite Hd by lia. cbn [bind].
  rewrite Hnew by lia. cbn [bind]. rewrite (place_ok _ _ i) by (now apply get_app). rewrite (put_app _ _ _ _ _ _ Hp0), Hpl. cbn [bind].
  rewrite Hdr by lia. reflexivity.
Qed.
Lemma run_ok st ks st' seen : means st ks st' seen -> forall s, Inv s st [] [] -> exists n s',
  (forall fuel, n <= fuel -> run_from small fuel s ks = Ok (s', seen)) /\ Inv s' st' [] [].
Proof.
  induction 1 as [st|st p v ks st' seen Hp Hm IH|st p m q u v ks st' seen Hp Hq Hrel Hm IH|st p c qs st1 vs u ks st' seen Ht Hp Hm IH|st p v ks st' seen Hp Hm IH];
    intros s HI.
  - exists 0, s. auto.
  - destruct (zap_step _ _ _ _ _ _ HI Hp) as (n1 & l & s0 & Hr & Hz & HI0). destruct (IH _ HI0) as (n2 & s' & Hs & HI').
    exists (max n1 n2), s'. split; auto. intros fuel Hf. cbn [run_from step]. rewrite Hr. cbn [bind]. rewrite Hz by lia. cbn [bind]. rewrite Hs by lia. reflexivity.
  - assert (Hst : exists n s', (forall fuel, n <= fuel -> step small fuel s (Assign p m q) = Ok (s', [])) /\
      Inv s' (set_at (fst (taken st q m v)) p (snd (taken st q m v))) [] []).
    { destruct m; cbn [taken fst snd].
      - apply (assign_copy s st [] [] p Const q u v); auto; [discriminate|]. tauto.
      - apply (assign_copy s st [] [] p NonConst q u v); auto; [discriminate|]. tauto.
      - apply (assign_move s st [] [] p q u v); auto. destruct Hrel as [|[_ []]]; auto. }
    destruct Hst as (n1 & s1 & Hst & HI1). destruct (IH _ HI1) as (n2 & s' & Hs & HI').
    exists (max n1 n2), s'. split; auto. intros fuel Hf. cbn [run_from]. rewrite Hst by lia. cbn [bind]. rewrite Hs by lia. reflexivity.
  - destruct (set_step _ _ _ c _ _ _ _ HI Ht Hp) as (n1 & s1 & Hst & HI1). destruct (IH _ HI1) as (n2 & s' & Hs & HI').
    exists (max n1 n2), s'. split; auto. intros fuel Hf. cbn [run_from]. rewrite Hst by lia. cbn [bind]. rewrite Hs by lia. reflexivity.
  - destruct (look _ _ _ _ _ _ HI Hp) as (l & y & fm & Hr & Hg & Hy). destruct (proj1 (observe_ok (heap s)) _ _ _ Hy) as [n1 Ho].
    destruct (IH _ HI) as (n2 & s' & Hs & HI'). exists (max n1 n2), s'. split; auto.
    intros fuel Hf. cbn [run_from step]. rewrite Hr. cbn [bind]. rewrite Hg. cbn [bind]. rewrite Ho by lia. cbn [bind]. rewrite Hs by lia. reflexivity.
Qed.
Lemma run_app s ks js fuel s' e : run_from small fuel s ks = Ok (s', e) -> run_from small fuel s (ks ++ js) = do (s, es) <- run_from small fuel s' js; Ok (s, e ++ es).
Proof.
  revert s e. induction ks as [|k ks IH]; cbn [run_from app]; intros s e.
  - intros [= -> <-]. now destruct (run_from small fuel s' js) as [[]| |].
  - destruct (step small fuel s k) as [[s1 e1]| |]; try discriminate. cbn [bind]. destruct (run_from small fuel s1 ks) as [[s2 e2]| |] eqn:E; try discriminate.
    cbn [bind]. intros [= -> <-]. rewrite (IH _ _ E). destruct (run_from small fuel s' js) as [[]| |]; cbn; auto. now rewrite app_assoc.
Qed.
Lemma start_ok n : Inv (start n) (repeat None n) [] [].
Proof.
  exists [], []. cbn. split; [|split; [constructor|split; [auto|]]].
  - induction n; cbn; [constructor|]. change (@nil nat) with (@nil nat ++ @nil nat). constructor; auto. constructor.
  - intros [|b]; discriminate.
Qed.
Lemma finish_ok s st : Inv s st [] [] -> exists n h, (forall fuel, n <= fuel -> finish fuel s = Ok h) /\ forall b x, nth_error h b = Some x -> x = None.
Proof.
  intros (fp & ft & A & B & C & D). inversion B; subst. destruct (destroys_ok (heap s) _ _ _ A) as [n Hn]. exists n, (kills fp (heap s)). split.
  - intros fuel Hf. unfold finish. apply Hn; [auto|intros b _; reflexivity|]. apply cnt_nodup. intros b. specialize (C b). lia.
  - intros b x Hb. destruct (in_dec Nat.eq_dec b fp) as [Hi|Hi].
    + rewrite kills_dead in Hb; auto; [congruence|]. eapply creps_lt with (f := fp); eauto.
    + rewrite kills_other in Hb by auto. destruct x as [y|]; auto. specialize (D _ _ Hb). rewrite cnt_in in Hi. cbn in D. lia.
Qed.

(** Assignments that the meaning leaves out. *)
Lemma walk_split s : forall a b l g, walk s l (a ++ b) = Ok g -> exists m, walk s l a = Ok m /\ walk s m b = Ok g.
Proof.
  induction a as [|k a IH]; cbn [app walk]; intros b l g H; eauto. destruct (get s l); try discriminate. cbn [bind] in *. destruct (impl a0); try discriminate. auto.
Qed.
Lemma walk_inside s l k ks g y yg v fm : walk s l (k :: ks) = Ok g -> get s l = Ok y -> get s g = Ok yg -> crep (heap s) y v fm ->
  exists d j, g = Cap d j /\ In d fm.
Proof.
  intros Hw Hl Hg Hy. destruct (walk_last _ _ _ _ Hw) as [[E _]|(js & j & d & l' & x & _ & -> & Hw' & Hl' & Hx)]; [discriminate|].
  exists d, j. split; auto. eapply reach_in; eauto. eapply walk_cellat; eauto.
Qed.
Lemma assign_from_inside s st p m q u v : Inv s st [] [] -> at_ st p = Some u -> at_ st q = Some v -> inside q p ->
  exists n, forall fuel, n <= fuel -> step small fuel s (Assign p m q) = Fault UseAfterFree.
Proof.
  intros HI Hp Hq [E (k & ks & Eq)]. destruct (destroy_step _ _ _ _ _ _ HI Hp) as (n & l & s1 & s0 & i & y & Hr & Hg & _ & Hd & _ & _ & _ & _ & _ & (fm & fl & fr & Hy & Hdead & _)).
  destruct (look _ _ _ _ _ _ HI Hq) as (g & yq & fmq & Hrq & Hgq & Hyq).
  assert (Hin : exists d j, g = Cap d j /\ In d fm).
  { unfold resolve in Hrq. rewrite E, Eq in Hrq. apply walk_split in Hrq as (l' & H1 & H2). unfold resolve in Hr. assert (l' = l) as -> by congruence. eapply walk_inside; eauto. }
  destruct Hin as (d & j & -> & Hin). exists n. intros fuel Hf. cbn [step]. rewrite Hr. cbn [bind]. rewrite Hrq. cbn [bind]. rewrite Hd by auto. cbn [bind].
  assert (Hg1 : get s1 (Cap d j) = Fault UseAfterFree). { cbn [get]. unfold live. now rewrite (Hdead _ Hin). }
  destruct m; unfold take, move; rewrite Hg1; reflexivity.
Qed.

Lemma copy_bad h o xs k ks vs l fl fr : hole h o xs k ks vs l fl fr -> forall s z, heap s = h -> owned s o xs -> get s l = Ok z ->
  (forall fuel r, 1 <= fuel -> copy_cell fuel (h ++ r) z = Fault UseAfterFree) ->
  exists n, forall fuel r, n <= fuel -> copy_cells fuel (h ++ r) xs = Fault UseAfterFree.
Proof.
  assert (Hpre : forall h xs1 vs1 f1, creps h xs1 vs1 f1 -> forall y xs2 n0,
    (forall fuel r, n0 <= fuel -> copy_cell fuel (h ++ r) y = Fault UseAfterFree) ->
    exists n, forall fuel r, n <= fuel -> copy_cells fuel (h ++ r) (xs1 ++ y :: xs2) = Fault UseAfterFree).
  { clear. intros h xs1 vs1 f1 H. induction H as [|x v f xs vs fs Hx Hxs IH]; intros y xs2 n0 Hy.
    - exists n0. intros fuel r Hf. cbn [app copy_cells]. rewrite Hy by auto. reflexivity.
    - destruct (IH y xs2 n0 Hy) as [n2 H2]. destruct (proj1 (copy_all h) _ _ _ Hx) as [n1 H1]. exists (max n1 n2). intros fuel r Hf.
      destruct (H1 (length (h ++ r))) as (new & z & Hz). destruct (Hz (h ++ r) eq_refl) as [Hcp _].
      { apply same_on_app. intros b Hb. eapply crep_lt; eauto. }
      cbn [app]. change (bind (copy_cell fuel (h ++ r) x) (fun '(h, c) => bind (copy_cells fuel h (xs ++ y :: xs2)) (fun '(h, cs) => Ok (h, c :: cs))) = Fault UseAfterFree).
      rewrite Hcp by lia. cbn [bind]. rewrite <- app_assoc, H2 by lia. reflexivity. }
  induction 1; intros s z Hs Ho Hg Hz.
  - erewrite get_owned in Hg; eauto. 2:apply nth_mid. injection Hg as <-. eapply Hpre; eauto.
  - destruct (IHhole s z Hs) as [n Hn]; auto. { exists c. now rewrite Hs. }
    eapply Hpre with (n0 := S n); eauto. intros [|fuel] r Hf; [lia|]. cbn [copy_cell impl].
    rewrite (live_ok _ _ (Block c cs)). 2:{ rewrite nth_error_app1 by (eapply nth_lt; eauto). auto. } cbn [bind caps].
    change (bind (copy_cells fuel (h ++ r) cs) (fun '(h, cs) => Ok (h ++ [Some (Block c cs)], Cell (PHeap (length h)) None)) = Fault UseAfterFree).
    rewrite Hn by lia. reflexivity.
Qed.
Lemma hole_sub h o xs k ks vs l fl fr : hole h o xs k ks vs l fl fr -> forall js j ks', ks = js ++ j :: ks' -> forall s, heap s = h -> owned s o xs ->
  exists g b c cs ws fl' fr', walk s (at_loc o k) js = Ok g /\ get s g = Ok (Cell (PHeap b) None) /\ nth_error h b = Some (Some (Block c cs)) /\ hole h (Some b) cs j ks' ws l fl' fr'.
Proof.
  induction 1; intros js j ks' E s Hs Ho. { destruct js; discriminate. }
  destruct js as [|j' js]; cbn in E; injection E as -> ->.
  - exists (at_loc o (length xs1)), b, c, cs, ws, fl, fr. split; [reflexivity|]. split; auto. eapply get_owned; eauto. apply nth_mid.
  - destruct (IHhole js j ks' eq_refl s Hs) as (g & b' & c' & cs' & ws' & fl' & fr' & Hw & Hr). { exists c. now rewrite Hs. }
    exists g, b', c', cs', ws', fl', fr'. split; auto. cbn [walk]. erewrite get_owned; eauto. 2:apply nth_mid. exact Hw.
Qed.
Lemma lookup_prefix : forall a b v u, lookup v (a ++ b) = Some u -> exists w, lookup v a = Some w.
Proof.
  induction a as [|k a IH]; cbn; intros b v u H; eauto. destruct v as [[c vs]|]; try discriminate. destruct (nth_error vs k); try discriminate. eauto.
Qed.
Lemma at_prefix st p q u : at_ st p = Some u -> fst p = fst q -> (exists k ks, snd p = snd q ++ k :: ks) -> exists w, at_ st q = Some w.
Proof.
  intros H E (k & ks & Ep). apply at_inv in H as (v & Hn & Hl). unfold at_. rewrite <- E, Hn. rewrite Ep in Hl. eapply lookup_prefix; eauto.
Qed.
Lemma assign_copy_bad s st p m q u v : Inv s st [] [] -> at_ st p = Some (Some u) -> at_ st q = Some v -> p = q \/ inside p q -> m <> Moved ->
  exists n, forall fuel, n <= fuel -> step small fuel s (Assign p m q) = Fault UseAfterFree.
Proof.
  intros HI Hp Hq Hrel Hm.
  destruct (destroy_step _ _ _ _ _ _ HI Hp) as (n & l & s1 & s0 & i & y & Hr & Hg & Hi & Hd & Hg1 & Hp0 & HI0 & Hs0 & _ & (fm & fl & fr & Hy & Hdead & Hh)).
  assert (Hbad : forall fuel r, 1 <= fuel -> copy_cell fuel (heap s1 ++ r) (Cell i None) = Fault UseAfterFree).
  { intros [|fuel] r Hf; [lia|]. inversion Hy; subst; auto. cbn [copy_cell impl]. unfold live. assert (Hb : In b (fp ++ [b])) by (apply in_or_app; right; now left).
    pose proof (Hdead b Hb) as Hn0. rewrite nth_error_app1 by (eapply nth_lt; eauto). rewrite Hn0. reflexivity. }
  assert (Hsrc : exists n g yq, resolve s q = Ok g /\ get s1 g = Ok yq /\ forall fuel, n <= fuel -> copy_cell fuel (heap s1) yq = Fault UseAfterFree).
  { destruct Hrel as [<-|[E (k & ks & Ep)]].
    - exists 1, l, (Cell i None). split; auto. split; auto. intros fuel Hf. rewrite <- (app_nil_r (heap s1)). auto.
    - destruct (look _ _ _ _ _ _ HI Hq) as (g & yq & fmq & Hrq & Hgq & Hyq).
      destruct (hole_sub _ _ _ _ _ _ _ _ _ Hh _ _ _ Ep s1 eq_refl eq_refl) as (g1 & b & c & cs & ws & fl' & fr' & Hw & Hgb & Hb & Hsub).
      assert (g1 = g) as ->.
      { destruct (at_prefix (set_at st p None) p q None) as [w' Hq'].
        { eapply at_set_eq; eauto. } { auto. } { eauto. }
        destruct (look _ _ _ _ _ _ HI0 Hq') as (g0 & _ & _ & Hr0 & _). unfold resolve in *.
        pose proof (sub_walk _ _ Hs0 _ _ _ Hr0). pose proof (sub_walk _ _ (put_nul_sub _ _ _ Hp0) _ _ _ Hr0). cbn in Hw. rewrite E in Hw. congruence. }
      destruct (copy_bad _ _ _ _ _ _ _ _ _ Hsub s1 (Cell i None) eq_refl) as [n0 Hn0]; auto. { now exists c. }
      exists (S n0), g, (Cell (PHeap b) None). split; auto. split; auto. intros [|fuel] Hf; [lia|]. cbn [copy_cell impl]. rewrite (live_ok _ _ _ Hb). cbn [bind caps].
      change (bind (copy_cells fuel (heap s1) cs) (fun '(h, cs) => Ok (h ++ [Some (Block c cs)], Cell (PHeap (length h)) None)) = Fault UseAfterFree).
      rewrite <- (app_nil_r (heap s1)), Hn0 by lia. reflexivity. }
  destruct Hsrc as (n' & g & yq & Hrq & Hgq & Hc). exists (max n n'). intros fuel Hf. cbn [step]. rewrite Hr. cbn [bind]. rewrite Hrq. cbn [bind]. rewrite Hd by lia. cbn [bind].
  destruct m; [| |congruence]; unfold take; rewrite Hgq; cbn [bind]; rewrite Hc by lia; reflexivity.
Qed.

Lemma lookup_node : forall v k ks u, lookup v (k :: ks) = Some u -> exists c vs, v = Some (Node c vs) /\ k < length vs.
Proof. intros [[c vs]|] k ks u; cbn; try discriminate. destruct (nth_error vs k) eqn:E; try discriminate. intros _. exists c, vs. split; auto. eapply nth_lt; eauto. Qed.
Lemma lookup_app : forall a b v w, lookup v a = Some w -> lookup v (a ++ b) = lookup w b.
Proof. induction a as [|k a IH]; cbn; intros b v w; [congruence|]. destruct v as [[c vs]|]; try discriminate. destruct (nth_error vs k); try discriminate. auto. Qed.
Lemma at_app st p q u v k ks : at_ st p = Some u -> at_ st q = Some v -> fst p = fst q -> snd p = snd q ++ k :: ks -> lookup v (k :: ks) = Some u.
Proof.
  intros Hp Hq E Ep. apply at_inv in Hp as (v1 & Hn & Hl). apply at_inv in Hq as (v2 & Hn2 & Hl2). assert (v1 = v2) by congruence; subst.
  rewrite Ep in Hl. now rewrite (lookup_app _ _ _ _ Hl2) in Hl.
Qed.
Lemma inside_ne p q : inside p q -> p <> q.
Proof.
  intros [E (k & ks & Ep)] ->. assert (length (snd q) = length (snd q ++ k :: ks)) as H by congruence. rewrite app_length in H. cbn in H. lia.
Qed.
Lemma move_into_itself s st p q u v : Inv s st [] [] -> at_ st p = Some u -> at_ st q = Some v -> inside p q ->
  exists n sF h b x, (forall fuel, n <= fuel -> step small fuel s (Assign p Moved q) = Ok (sF, []) /\ finish fuel sF = Ok h) /\ nth_error h b = Some (Some x).
Proof.
  intros HI Hp Hq Hin. pose proof (inside_ne _ _ Hin) as Hpq. destruct Hin as [E (k & ks & Ep)].
  destruct (destroy_step _ _ _ _ _ _ HI Hp) as (n & l & s1 & s0 & i & y & Hr & Hg & Hi & Hd & Hg1 & Hp0 & HI0 & Hs0 & _ & _).
  pose proof (emptied _ _ _ _ _ _ _ _ HI0 Hs0 Hr Hp) as Hr0. pose proof (at_set_eq _ _ None _ Hp) as Hp'.
  destruct (at_prefix (set_at st p None) p q None Hp' E) as [w' Hq']. { eauto. }
  pose proof (at_app _ _ _ _ _ _ _ Hp' Hq' E Ep) as Hl0. destruct (lookup_node _ _ _ _ Hl0) as (c & vs & -> & Hk).
  destruct (open_ _ _ _ _ _ _ HI0 Hq') as (g & yq & fl & fm & fr & ft & Hh & Hyq & Hft & Hc & _ & Hrq & Hgq). inversion Hft; subst.
  assert (Hne : g <> l). { destruct (apart _ _ _ _ p q l g nul yq _ fm HI0 Hr0 (get_put_same _ _ _ _ Hp0) Hrq Hgq Hyq Hpq); auto. }
  assert (Hrsq : resolve s q = Ok g). { unfold resolve in *. eapply sub_walk; eauto. }
  assert (Hgq1 : get s1 g = Ok yq). { rewrite <- (get_put_other _ _ _ _ _ Hp0 Hne). auto. }
  assert (Hb : exists b, yq = Cell (PHeap b) None /\ In b fm).
  { inversion Hyq; subst. { cbn in Hk. lia. } exists b. split; auto. apply in_or_app; right; now left. }
  destruct Hb as (b & -> & Hb).
  assert (Hlin : exists d j, l = Cap d j /\ In d fm).
  { unfold resolve in Hr0, Hrq. rewrite Ep, E in Hr0. apply walk_split in Hr0 as (g' & Hw1 & Hw2). assert (g' = g) as -> by congruence.
    eapply walk_inside; eauto. eapply get_put_same; eauto. }
  destruct Hlin as (d & j & -> & Hlin).
  assert (HD : NoDup (fl ++ fr)). { apply cnt_nodup. intros e. rewrite cnt_app. specialize (Hc e). lia. }
  destruct (hole_put _ _ _ _ _ _ _ _ _ Hh s0 nul eq_refl eq_refl HD) as (sA & xsA & HpA & HoA & HhA & HgA & HlA & _). { discriminate. }
  cbn in HoA. subst xsA. pose proof (plug _ _ _ _ _ _ _ _ _ HhA sA nul None [] eq_refl eq_refl HgA (cr_null _)) as Hrep. cbn [app] in Hrep.
  (* the cell at l can be written in sA *)
  assert (HlF : exists sF, put sA (Cap d j) (Cell (PHeap b) None) = Ok sF).
  { pose proof (get_put_same _ _ _ _ Hp0) as Hgl. rewrite <- (get_put_other _ _ _ _ _ HpA (not_eq_sym Hne)) in Hgl.
    cbn [get] in Hgl. cbn [put]. destruct (live (heap sA) d) as [x| |]; try discriminate. cbn [bind] in *. unfold slot_get in Hgl. destruct (nth_error (caps x) j) eqn:Ej; try discriminate.
    rewrite slot_set_ok by (eapply nth_lt; eauto). cbn [bind]. eauto. }
  destruct HlF as [sF HpF]. destruct (put_comm _ _ _ _ _ _ _ (not_eq_sym Hne) HpA HpF) as (sC & HpC & HpD).
  destruct (put_like _ _ _ _ HpF) as (HlenF & HlkF & HliveF). destruct HlA as (HlenA & _ & HliveA).
  assert (Hdis : forall e, In e fm -> ~ In e (fl ++ fr)). { intros e He Hx. rewrite cnt_in in *. rewrite cnt_app in Hx. specialize (Hc e). lia. }
  assert (HrepF : creps (heap sF) (globs sF) (upd (set_at st p None) (fst q) (change (nth (fst q) (set_at st p None) None) (snd q) None)) (fl ++ fr)).
  { assert (globs sF = globs sA) as ->.
    { cbn [put] in HpF. destruct (live (heap sA) d) as [x| |]; try discriminate. cbn [bind] in HpF. destruct (slot_set (caps x) j (Cell (PHeap b) None)); try discriminate. cbn [bind] in HpF. injection HpF as <-. reflexivity. }
    eapply creps_frame; eauto. intros e He. apply HlkF. cbn. intros [->|[]]. eapply Hdis; eauto. }
  destruct (destroys_ok _ _ _ _ HrepF) as [n2 Hn2].
  assert (HbF : exists x, nth_error (heap sF) b = Some (Some x)). { apply HliveF, HliveA. eapply crep_alive; eauto. }
  destruct HbF as [x HbF]. exists (max n n2), sF, (kills (fl ++ fr) (heap sF)), b, x. split.
  - intros fuel Hf. split.
    + cbn [step]. rewrite Hr. cbn [bind]. rewrite Hrsq. cbn [bind]. rewrite Hd by lia. cbn [bind]. unfold move. rewrite Hgq1. cbn [bind impl buf].
      rewrite (place_ok _ _ _ _ Hg1). rewrite (put_put _ _ _ _ _ Hp0) in HpC. rewrite HpC. cbn [bind].
      rewrite (get_put_other _ _ _ _ _ HpC Hne). rewrite Hgq1. cbn [bind buf]. unfold nul in HpD. rewrite HpD. reflexivity.
    + unfold finish. apply Hn2; [lia|intros e _; reflexivity|auto].
  - rewrite kills_other; auto.
Qed.
End Steps.
