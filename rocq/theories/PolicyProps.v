(** C120: containers and the AllocPolicy they are given. *)
From Verif Require Import Base PolicyModel PolicySpec PolicyProofs.

(** HashTable, in full: exactly the events of a container whose one policy is the one it was given. *)
Theorem C120_hashtable :
  forall p w es, Forall plain_table p -> exec_all start p = Ok (w, es) -> exists s, ideals (fun _ => None) p es s.
Proof. intros p w es HF E. eapply run_plain; eauto; discriminate || (intros v; reflexivity) || (intros v t; discriminate). Qed.
Print Assumptions C120_hashtable.

(** HashTable, HashMap and HashSet: memory is asked of, and returned to, the policy given. *)
Theorem C120_tables_partial :
  forall p w es, Forall on_tables p -> exec_all start p = Ok (w, es) ->
  exists es' s, ideals (fun _ => None) p es' s /\
    filter (fun e => negb (is_query e)) es = filter (fun e => negb (is_query e)) es'.
Proof.
  intros p w es HF E. destruct (run_sim p start (fun _ => None) w es) as (es' & s & H & S); auto.
  - intros v; reflexivity.
  - intros v f; discriminate.
  - exists es', s. split; [exact H|]. now symmetry.
Qed.
Print Assumptions C120_tables_partial.

(** But the allocPolicy() of a HashMap or HashSet is never the policy it was given, nor any policy asked for memory. *)
Theorem C120_allocPolicy_refuted :
  forall p w es, Forall on_tables p -> Forall client_policy p -> exec_all start p = Ok (w, es) ->
  forall v o w' q, objs w v = Some (OT o) -> tkind o <> KTable -> exec w (TPolicy v) = Ok (w', [EPolicy q]) ->
  (forall n, q <> Given n) /\ (forall b, ~ In (EMalloc q b) es).
Proof.
  intros p w es HF HC E v o w' q Ev Hk. cbn. rewrite Ev. intros [= _ <-].
  destruct (run_roles p start (fun _ => None) w es) as [Hr Ha]; auto.
  - intros x; reflexivity.
  - intros x f; discriminate.
  - intros x t; discriminate.
  - destruct (Hr v o Ev) as [_ Hm]. destruct (Hm Hk) as (n & En). unfold table_policy. rewrite En.
    split; [discriminate|]. intros b Hin. apply Ha in Hin as (m & Hm2). discriminate.
Qed.
Print Assumptions C120_allocPolicy_refuted.

(** FixedArray never asks the policy it was given. *)
Theorem C120_fixedarray_refuted :
  forall w v n k w' es p b, exec w (FNew v n (Given k) true) = Ok (w', es) -> In (EMalloc p b) es -> p <> Given k.
Proof. intros w v n k w' es p b E Hin. destruct (fixed_made _ _ _ _ _ _ _ E _ _ Hin) as (m & ->). discriminate. Qed.
Print Assumptions C120_fixedarray_refuted.

(** Every block goes back to the policy it came from, once, as long as no FixedArray is moved ... *)
Theorem C120_blocks_go_back_partial :
  forall p w es, Forall (fun x => ~ moves_arrays x) p -> exec_all start p = Ok (w, es) -> balanced [] es.
Proof. intros p w es HF E. eapply run_balanced; eauto using start_held. Qed.
Print Assumptions C120_blocks_go_back_partial.

(** ... and moving one makes another policy free the block, whatever happened before. *)
Theorem C120_moved_array_refuted :
  forall p w es u v n ap, exec_all start p = Ok (w, es) -> u <> v -> objs w u = None -> objs w v = None ->
  exists w' a a' b, a <> a' /\
    exec_all w [FNew u n ap true; FMove v u; Destroy v] = Ok (w', [EMalloc a b; EFree a' (Some b)]) /\
    ~ balanced [] [EMalloc a b; EFree a' (Some b)].
Proof.
  intros p w es u v n ap _ Huv Eu Ev. apply not_eq_sym in Huv. apply Nat.eqb_neq in Huv.
  cbn -[Nat.eqb]. rewrite Eu. cbn -[Nat.eqb]. rewrite Huv, Ev, Nat.eqb_refl. cbn -[Nat.eqb]. rewrite Nat.eqb_refl. cbn.
  eexists _, _, _, _. split; [|split; [reflexivity|]].
  - intros [= H]. lia.
  - intros [_ (h1 & h2 & E & _)]. destruct h1 as [|x h1].
    + injection E as E _. lia.
    + injection E as _ E. destruct h1; discriminate.
Qed.
Print Assumptions C120_moved_array_refuted.

(** Move-assignment does both wrong: the block that comes with the move goes back to the wrong policy, and the block the target
    had never goes back at all. *)
Theorem C120_move_assigned_array_refuted :
  forall p w es u v n m ap, exec_all start p = Ok (w, es) -> u <> v -> objs w u = None -> objs w v = None ->
  exists w' a a' b b', a <> a' /\ b <> b' /\
    exec_all w [FNew u n ap true; FNew v m ap true; FMoveAssign v u; Destroy v; Destroy u] =
      Ok (w', [EMalloc a b; EMalloc a' b'; EFree a' (Some b); EFree a None]) /\
    ~ balanced [] [EMalloc a b; EMalloc a' b'; EFree a' (Some b); EFree a None].
Proof.
  intros p w es u v n m ap _ Huv Eu Ev. pose proof (not_eq_sym Huv) as Hvu. apply Nat.eqb_neq in Huv, Hvu.
  cbn -[Nat.eqb]. rewrite Eu. cbn -[Nat.eqb]. rewrite Hvu, Ev. cbn -[Nat.eqb].
  repeat (rewrite ?Nat.eqb_refl, ?Huv, ?Hvu; cbn -[Nat.eqb]).
  eexists _, _, _, _, _. split; [|split; [|split; [reflexivity|]]].
  - intros [= H]. lia.
  - lia.
  - intros [_ [_ (h1 & h2 & E & _)]]. destruct h1 as [|x h1].
    + injection E. lia.
    + injection E as _ E. destruct h1 as [|y h1]; [injection E; lia|destruct h1; discriminate].
Qed.
Print Assumptions C120_move_assigned_array_refuted.

Definition ex_tables : list stmt :=
  [TNew 0 KTable (Given 7); TInit 0 true; TResize 0 true; TMove 1 0; TPolicy 1; TResize 1 false; Destroy 0; Destroy 1].
Definition ex_maps : list stmt :=
  [TNew 0 KMap (Given 7); TInit 0 true; TNew 2 KSet (Given 8); TInit 2 false; TInit 2 true; TMove 1 0; TPolicy 1; TPolicy 2; TResize 1 true; Destroy 0].
Definition events (p : list stmt) := match exec_all start p with Ok (_, es) => es | _ => [] end.
Example C120_nonvacuous :
  events ex_tables = [EMalloc (Given 7) 0; EMalloc (Given 7) 1; EFree (Given 7) (Some 0); EPolicy (Given 7); ERefused (Given 7);
    EFree (Given 7) None; EFree (Given 7) (Some 1)] /\
  events ex_maps = [EMalloc (Given 7) 0; ERefused (Given 8); EMalloc (Given 8) 1; EPolicy (Made 2); EPolicy (Made 1);
    EMalloc (Given 7) 2; EFree (Given 7) (Some 0); EFree (Given 7) None] /\
  Forall plain_table ex_tables /\ Forall on_tables ex_maps /\ Forall client_policy ex_maps /\
  events [FNew 0 3 (Given 5) true; FCopy 1 0 true; FNew 2 4 (Given 5) true; FAssign 1 2 true; Destroy 0; Destroy 1] =
    [EMalloc (Made 0) 0; EMalloc (Made 1) 1; EMalloc (Made 2) 2; EFree (Made 1) (Some 1); EMalloc (Made 1) 3;
     EFree (Made 0) (Some 0); EFree (Made 1) (Some 3)].
Proof. repeat split; repeat constructor. Qed.
