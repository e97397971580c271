(** Which AllocPolicy object the containers ask for memory: am-hashtable.h:379-427 and 486-491, am-hashmap.h:93-100 and 165-170,
    am-hashset.h:67-73 and 148-153, am-fixedarray.h:40-87, 126-145, 159-170.

    A policy is a handle (to an arena, a heap, a statistics counter): copying or moving a policy object copies the handle,
    default-constructing one makes a handle of its own.  Contents, sizes and densities are left out: a table may be resized at
    any moment, and each request for memory is granted or refused.  Reports of failure go to the same objects and are left out. *)
From Verif Require Import Base.

(** Handles: made by the client, or default-constructed as the base class of the n-th object (am-hashmap.h:93, am-fixedarray.h:44). *)
Inductive pol := Given (n : nat) | Made (n : nat).
(** Which of the classes of am-hashtable.h:132-553, am-hashmap.h:54-174, am-hashset.h:39-157. *)
Inductive kind := KTable | KMap | KSet.
(** Calls of the policy's members (am-allocator-policies.h:57-68) and answers of allocPolicy() (am-hashtable.h:486-491). *)
Inductive event :=
| EMalloc (p : pol) (b : nat)            (* p.am_malloc() gave block b *)
| ERefused (p : pol)                     (* p.am_malloc() gave nullptr *)
| EFree (p : pol) (b : option nat)       (* p.am_free(b); None: nullptr *)
| EPolicy (p : pol).                     (* allocPolicy() refers to p *)

(** am-hashtable.h:548-552 with its base class; for HashMap and HashSet (am-hashmap.h:172-173, am-hashset.h:155-156) the base
    class of the object itself is [own] and that of the member table_ is [table_pol].  For a HashTable they are one object. *)
Record tobj := TObj { tkind : kind; own : pol; table_pol : pol; tblock : option nat }.
(** am-fixedarray.h:40-41, 172-174. *)
Record fobj := FObj { fown : pol; fsize : nat; fblock : option nat }.
(** An object of either class (am-hashtable.h:548-552, am-fixedarray.h:172-174). *)
Inductive object := OT (t : tobj) | OF (f : fobj).

(** The variables of a client program, and how many blocks (am-allocator-policies.h:57-68) and base objects (am-hashmap.h:93) were made. *)
Record world := World { objs : nat -> option object; blocks : nat; made : nat }.
(** Storing an object in a variable: the members of am-hashtable.h:379-427 and am-fixedarray.h:44-145 modify it in place. *)
Definition put (w : world) (v : nat) (o : option object) : world :=
  World (fun x => if Nat.eqb x v then o else objs w x) (blocks w) (made w).
(** A policy default-constructed as a base class: am-hashmap.h:93, am-hashset.h:67, am-fixedarray.h:44-82 name no initialiser. *)
Definition default_base (w : world) : pol * world := (Made (made w), World (objs w) (blocks w) (S (made w))).
(** am_malloc of a policy (interface of am-allocator-policies.h:57-68). *)
Definition ask (w : world) (p : pol) (granted : bool) : option nat * world * list event :=
  if granted then (Some (blocks w), World (objs w) (S (blocks w)) (made w), [EMalloc p (blocks w)])
  else (None, w, [ERefused p]).

(** am-hashtable.h:379-386 (the base is a copy of ap), am-hashmap.h:93-95, am-hashset.h:67-69 (only table_ gets ap). *)
Definition table_ctor (w : world) (k : kind) (ap : pol) : tobj * world :=
  match k with
  | KTable => (TObj k ap ap None, w)
  | KMap | KSet => let '(d, w') := default_base w in (TObj k d ap None, w')
  end.
(** am-hashtable.h:388-401 (AllocPolicy(std::move(other))), am-hashmap.h:97-99, am-hashset.h:71-73: the object made and what is
    left of the other one. *)
Definition table_move (w : world) (o : tobj) : tobj * tobj * world :=
  let left_ := TObj (tkind o) (own o) (table_pol o) None in
  match tkind o with
  | KTable => (TObj KTable (own o) (table_pol o) (tblock o), left_, w)
  | KMap | KSet =>
      let '(d, w') := default_base w in (TObj (tkind o) d (table_pol o) (tblock o), left_, w')
  end.
(** am-hashtable.h:409-427 through am-hashmap.h:102, am-hashset.h:76: createTable asks the table's own base. *)
Definition table_init (w : world) (o : tobj) (granted : bool) : tobj * world * list event :=
  let '(b, w', e) := ask w (table_pol o) granted in (TObj (tkind o) (own o) (table_pol o) b, w', e).
(** am-hashtable.h:255-281: ask for the new table, give the old one back. *)
Definition table_resize (w : world) (o : tobj) (granted : bool) : tobj * world * list event :=
  let '(b, w', e) := ask w (table_pol o) granted in
  match b with
  | None => (o, w', e)
  | Some _ => (TObj (tkind o) (own o) (table_pol o) b, w', e ++ [EFree (table_pol o) (tblock o)])
  end.
(** am-hashtable.h:403-407. *)
Definition table_dtor (o : tobj) : list event := [EFree (table_pol o) (tblock o)].
(** am-hashtable.h:486-491, am-hashmap.h:165-170, am-hashset.h:148-153: return *this. *)
Definition table_policy (o : tobj) : pol := own o.

(** am-fixedarray.h:160-164. *)
Definition f_allocate (w : world) (p : pol) (n : nat) (granted : bool) : fobj * world * list event :=
  let '(b, w', e) := ask w p granted in (FObj p n b, w', e).
(** am-fixedarray.h:46-57, 66-82: the AllocPolicy argument of :46 is not used; every constructor default-constructs the base. *)
Definition f_ctor (w : world) (n : nat) (ap : pol) (granted : bool) : fobj * world * list event :=
  let '(d, w') := default_base w in f_allocate w' d n granted.
(** am-fixedarray.h:44-45. *)
Definition f_empty (w : world) : fobj * world :=
  let '(d, w') := default_base w in (FObj d 0 None, w').
(** am-fixedarray.h:59-64. *)
Definition f_move_ctor (w : world) (o : fobj) : fobj * fobj * world :=
  let '(d, w') := default_base w in (FObj d (fsize o) (fblock o), FObj (fown o) 0 None, w').
(** am-fixedarray.h:126-137. *)
Definition f_assign (w : world) (o other : fobj) (granted : bool) : fobj * world * list event :=
  if Nat.eqb (fsize o) (fsize other) then (o, w, [])
  else
    let '(o', w', e) := f_allocate w (fown o) (fsize other) granted in
    (o', w', EFree (fown o) (fblock o) :: e).
(** am-fixedarray.h:138-145. *)
Definition f_move_assign (o other : fobj) : fobj * fobj :=
  (FObj (fown o) (fsize other) (fblock other), FObj (fown other) 0 None).
(** am-fixedarray.h:84-87, 169-171. *)
Definition f_dtor (o : fobj) : list event := [EFree (fown o) (fblock o)].

(** Client programs over the members above (am-hashtable.h:379-491, am-fixedarray.h:44-145). *)
Inductive stmt :=
| TNew (v : nat) (k : kind) (ap : pol)         (* HashTable/HashMap/HashSet v(ap) *)
| TInit (v : nat) (granted : bool)             (* v.init() *)
| TResize (v : nat) (granted : bool)           (* an add or checkDensity() of v that resizes *)
| TMove (v u : nat)                            (* v(std::move(u)) *)
| TPolicy (v : nat)                            (* v.allocPolicy() *)
| FNew (v n : nat) (ap : pol) (granted : bool) (* FixedArray v(n, ap) *)
| FEmpty (v : nat)                             (* FixedArray v *)
| FCopy (v u : nat) (granted : bool)           (* FixedArray v(u) *)
| FMove (v u : nat)                            (* FixedArray v(std::move(u)) *)
| FAssign (v u : nat) (granted : bool)         (* v = u *)
| FMoveAssign (v u : nat)                      (* v = std::move(u) *)
| Destroy (v : nat).
(** One statement; using a variable that holds no object of the right class, or overwriting one, is a client error.
    The members are am-hashtable.h:379-491 and am-fixedarray.h:44-145. *)
Definition exec (w : world) (s : stmt) : outcome (world * list event) :=
  match s with
  | TNew v k ap =>
      match objs w v with
      | None => let '(o, w') := table_ctor w k ap in Ok (put w' v (Some (OT o)), [])
      | _ => Fault BadArg
      end
  | TInit v g =>
      match objs w v with
      | Some (OT o) =>
          match tblock o with
          | None => let '(o', w', e) := table_init w o g in Ok (put w' v (Some (OT o')), e)
          | Some _ => Fault BadArg     (* init() once per table: C06_second_init_leaks *)
          end
      | _ => Fault BadArg
      end
  | TResize v g =>
      match objs w v with
      | Some (OT o) =>
          match tblock o with
          | Some _ => let '(o', w', e) := table_resize w o g in Ok (put w' v (Some (OT o')), e)
          | None => Fault BadArg
          end
      | _ => Fault BadArg
      end
  | TMove v u =>
      match objs w v, objs w u with
      | None, Some (OT o) =>
          let '(n, l, w') := table_move w o in Ok (put (put w' u (Some (OT l))) v (Some (OT n)), [])
      | _, _ => Fault BadArg
      end
  | TPolicy v =>
      match objs w v with Some (OT o) => Ok (w, [EPolicy (table_policy o)]) | _ => Fault BadArg end
  | FNew v n ap g =>
      match objs w v with
      | None => let '(o, w', e) := f_ctor w n ap g in Ok (put w' v (Some (OF o)), e)
      | _ => Fault BadArg
      end
  | FEmpty v =>
      match objs w v with
      | None => let '(o, w') := f_empty w in Ok (put w' v (Some (OF o)), [])
      | _ => Fault BadArg
      end
  | FCopy v u g =>
      match objs w v, objs w u with
      | None, Some (OF x) => let '(o, w', e) := f_ctor w (fsize x) (Given 0) g in Ok (put w' v (Some (OF o)), e)
      | _, _ => Fault BadArg
      end
  | FMove v u =>
      match objs w v, objs w u with
      | None, Some (OF x) =>
          let '(o, l, w') := f_move_ctor w x in Ok (put (put w' u (Some (OF l))) v (Some (OF o)), [])
      | _, _ => Fault BadArg
      end
  | FAssign v u g =>
      match objs w v, objs w u with
      | Some (OF o), Some (OF x) => let '(o', w', e) := f_assign w o x g in Ok (put w' v (Some (OF o')), e)
      | _, _ => Fault BadArg
      end
  | FMoveAssign v u =>
      match objs w v, objs w u with
      | Some (OF o), Some (OF x) =>
          if Nat.eqb v u then Fault BadArg
          else let '(o', l) := f_move_assign o x in Ok (put (put w u (Some (OF l))) v (Some (OF o')), [])
      | _, _ => Fault BadArg
      end
  | Destroy v =>
      match objs w v with
      | Some (OT o) => Ok (put w v None, table_dtor o)
      | Some (OF o) => Ok (put w v None, f_dtor o)
      | None => Fault BadArg
      end
  end.
(** Sequences of statements over am-hashtable.h:379-491 and am-fixedarray.h:44-145. *)
Fixpoint exec_all (w : world) (p : list stmt) : outcome (world * list event) :=
  match p with
  | [] => Ok (w, [])
  | s :: r => do (w', e) <- exec w s; do (w'', e') <- exec_all w' r; Ok (w'', e ++ e')
  end.
(** Before any constructor of am-hashtable.h:379 or am-fixedarray.h:44 has run. *)
Definition start : world := World (fun _ => None) 0 0.
