From Coq Require Import String.
From Verif Require Import Base RewriteModel RewriteSpec RewriteProofs RewriteProps StylerModel StylerSpec StylerRules StylerProofs StylerVisit StylerProps StylerFile.
Local Open Scope nat_scope.
Local Open Scope string_scope.
Local Open Scope list_scope.
Local Open Scope nat_scope.

(** * C96, whole files *)
(** On a neat source with any number of statements and functions, the output is the text with exactly the edits that the
    rules of StylerRules.v ask for: none is missing and no other is made. *)
Theorem C96_file : forall w debug t tok_end kind fuel ns,
  (N.of_nat (length t) < 2 ^ w - 1)%N -> length t < fuel ->
  Forall (neat t tok_end kind) ns -> Forall (starts t) ns -> distinct ns ->
  exists ops, (forall op, In op ops <-> asked t tok_end kind ns op) /\ all_apart ops /\
    restyled w debug t tok_end kind fuel ns (edited ops 0 t).
Proof.
  intros w debug t tok_end kind fuel ns Hw Hf HN HS HD.
  destruct (visit_all_ok w debug t tok_end kind Hw fuel ns Hf HN HD [] [] []) as (es & seen & E & F & ND & _); [intros f []|intros n m []|].
  destruct (visit_all_l w debug t tok_end kind Hw fuel Hf ns [] [] [] HN HS) as (l & seen' & E' & H).
  { intros x. split; [intros []|]. intros (f & [] & _). }
  rewrite E in E'. cbn [app] in E'. injection E' as <- <-. exists (all_ops es). split; [|split].
  - intros op. rewrite H. unfold asked. split; intros (bef & n & aft & En & W & A); exists bef, n, aft; (split; [exact En|split; [exact W|]]); intros (m & G & AG); apply A; exists m; split; auto.
    destruct G as [[]|G]. exact G.
  - now apply (all_ops_apart t tok_end kind).
  - exists (all_ops es), seen. split; [exact E|]. intros sorted Hs. destruct (all_ops_inside t tok_end kind es F).
    apply C89_edits_applied_partial; auto. now apply (all_ops_apart t tok_end kind).
Qed.
Print Assumptions C96_file.
(** A file in which the rules ask for nothing is written back as it is. *)
Theorem C96_nothing_asked : forall w debug t tok_end kind fuel ns,
  (N.of_nat (length t) < 2 ^ w - 1)%N -> length t < fuel ->
  Forall (neat t tok_end kind) ns -> Forall (starts t) ns -> distinct ns ->
  (forall op, ~ asked t tok_end kind ns op) -> restyled w debug t tok_end kind fuel ns t.
Proof.
  intros w debug t tok_end kind fuel ns Hw Hf HN HS HD NA.
  destruct (C96_file w debug t tok_end kind fuel ns Hw Hf HN HS HD) as (ops & H & _ & R).
  destruct ops as [|op ops]; [|destruct (NA op); apply H; now left].
  rewrite (edited_same [] t 0) in R; [exact R|]. intros op k [].
Qed.
Print Assumptions C96_nothing_asked.

(** The source with five nodes of StylerProps.v. *)
Example C96_file_nonvacuous :
  Forall (neat neat_src (demo_end neat_src) (demo_kind neat_src)) neat_nodes /\ Forall (starts neat_src) neat_nodes /\ distinct neat_nodes /\
  asked neat_src (demo_end neat_src) (demo_kind neat_src) neat_nodes (Op InsertAt (N.of_nat (at_ "==("%string 0)) 0%N [32%N]) /\
  demo_run neat_src neat_nodes = Ok (neat_out, []).
Proof.
  destruct C94_nonvacuous as (A & B & _ & D). split; [exact A|]. split; [|split; [exact B|split; [|exact D]]].
  - unfold neat_nodes. repeat (constructor; [first [cbn [starts c_start]; apply solid_b; vm_compute; reflexivity | intros tb te X; cbn in X; injection X as <- <-; apply solid_b; vm_compute; reflexivity]|]). constructor.
  - unfold neat_nodes. eexists (_ :: _ :: _ :: _ :: nil), _, nil. split; [reflexivity|]. split.
    + split; [reflexivity|]. left. eexists. split; [reflexivity|]. split; [apply solid_b; vm_compute; reflexivity|]. vm_compute. reflexivity.
    + intros (m & Hm & f & g & -> & [= <-] & Es & _). cbn [In] in Hm. destruct Hm as [Hm|[Hm|[Hm|[Hm|[]]]]]; try discriminate Hm; injection Hm as <-; cbn in Es; discriminate Es.
Qed.
(** A file that stays as it is: one `if' with its parentheses on one line. *)
Definition calm_src : text := str ("  if (a) {" +++ nl +++ "  }" +++ nl).
Definition calm_nodes : list node := [NCond (Cond true 2 true 9 (Some 6))].
Example C96_nothing_asked_nonvacuous :
  restyled 64 true calm_src (demo_end calm_src) (demo_kind calm_src) (S (length calm_src)) calm_nodes calm_src.
Proof.
  apply C96_nothing_asked; [reflexivity|num| | | |].
  - constructor; [|constructor]. intros _ _. exists 7. split; [num|]. split; [split; [ch|]; split; [num|]; split; [apply blank_b; reflexivity|ch]|].
    split; [apply solid_b; reflexivity|]. split; [num|]. exists 7. split; [here|left; split; reflexivity].
  - constructor; [apply solid_b; reflexivity|constructor].
  - split; [repeat constructor; cbn; tauto|repeat constructor].
  - intros op ([|m bef] & n & aft & E & W & _); [|destruct bef; discriminate E]. injection E as <- <-. cbn in W.
    destruct W as (_ & _ & p & F & Ne & _). assert (p = 7); [|subst p; now apply Ne].
    eapply (follows_unique 64 calm_src (demo_end calm_src) (demo_kind calm_src)); [reflexivity|exact F|]. split; [ch|]. split; [num|]. split; [apply blank_b; reflexivity|ch].
Qed.
