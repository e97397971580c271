(** What a client expects of the AllocPolicy argument: a container has one policy, the one given to its constructor (for a
    moved-to object, the one of the object moved from).  It asks that policy for memory, returns memory to it, and
    allocPolicy() is that policy. *)
From Verif Require Import Base PolicyModel.

Record container := Container { the_policy : pol; the_block : option nat }.
Definition env := nat -> option container.
Definition set (s : env) (v : nat) (o : option container) : env := fun x => if Nat.eqb x v then o else s x.

(** The events a statement on tables may have; [n] is the block handed out. *)
Inductive ideal : env -> stmt -> list event -> env -> Prop :=
| i_new s v k ap : s v = None -> ideal s (TNew v k ap) [] (set s v (Some (Container ap None)))
| i_init s v p n : s v = Some (Container p None) ->
    ideal s (TInit v true) [EMalloc p n] (set s v (Some (Container p (Some n))))
| i_init_no s v p : s v = Some (Container p None) ->
    ideal s (TInit v false) [ERefused p] s
| i_resize s v p b n : s v = Some (Container p (Some b)) ->
    ideal s (TResize v true) [EMalloc p n; EFree p (Some b)] (set s v (Some (Container p (Some n))))
| i_resize_no s v p b : s v = Some (Container p (Some b)) ->
    ideal s (TResize v false) [ERefused p] s
| i_move s v u c : s v = None -> s u = Some c ->
    ideal s (TMove v u) [] (set (set s u (Some (Container (the_policy c) None))) v (Some c))
| i_policy s v c : s v = Some c -> ideal s (TPolicy v) [EPolicy (the_policy c)] s
| i_destroy s v c : s v = Some c -> ideal s (Destroy v) [EFree (the_policy c) (the_block c)] (set s v None).
Inductive ideals : env -> list stmt -> list event -> env -> Prop :=
| is_nil s : ideals s [] [] s
| is_cons s x e s1 p es s2 : ideal s x e s1 -> ideals s1 p es s2 -> ideals s (x :: p) (e ++ es) s2.

Definition on_tables (s : stmt) : Prop :=
  match s with TNew _ _ _ | TInit _ _ | TResize _ _ | TMove _ _ | TPolicy _ | Destroy _ => True | _ => False end.
Definition plain_table (s : stmt) : Prop := match s with TNew _ k _ => k = KTable | _ => on_tables s end.
Definition is_query (e : event) : bool := match e with EPolicy _ => true | _ => false end.

(** Every block freed was handed out before, by the same policy, and not freed since. *)
Fixpoint balanced (held : list (pol * nat)) (es : list event) : Prop :=
  match es with
  | [] => True
  | EMalloc p b :: r => ~ In b (map snd held) /\ balanced ((p, b) :: held) r
  | EFree p (Some b) :: r => exists h1 h2, held = h1 ++ (p, b) :: h2 /\ balanced (h1 ++ h2) r
  | _ :: r => balanced held r
  end.
