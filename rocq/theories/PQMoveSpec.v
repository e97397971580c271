(** A priority queue whose items may throw when moved: the cells a call that throws leaves, from a queue that held [S]. *)
From Verif Require Import Base PQModel.

Section S.
Variable T : Type.
(** [q] holds the items [S], in any order, and nothing else. *)
Definition sound (q : pq T) (S : list T) : Prop := exists L, q = map Some L /\ Permutation L S.
(** [q] holds the items [S], in any order, and one moved-from item. *)
Definition holed (q : pq T) (S : list T) : Prop := Permutation q (None :: map Some S).

(** What a call that threw may have done. *)
Definition after_throw (q : pq T) (S : list T) (o : op T) (q' : pq T) : Prop :=
  match o with
  | PAdd x => q' = q                       (* nothing *)
      \/ q' = q ++ [Some x]                (* the item is in the queue, last, whatever its priority *)
      \/ holed q' S                        (* the item is lost, a moved-from item is in the queue *)
  | PPop => q' = q                         (* nothing *)
      \/ exists top S', hd_error q = Some (Some top) /\ Permutation S (top :: S') /\
           (sound q' S'                    (* the item that was to be returned is lost *)
            \/ holed q' S'                 (* and a moved-from item is in the queue *)
            \/ exists y S'', Permutation S' (y :: S'') /\ holed q' S'')     (* and another item is lost *)
  | _ => False
  end.
End S.
Arguments sound {T}. Arguments holed {T}. Arguments after_throw {T}.
