(** Model of where the containers keep their elements: am-storagebuffer.h, am-maybe.h, am-function.h, am-hashtable.h
    (HashTableEntry) and am-fixedarray.h, as sizes, alignments and addresses.  Struct and union layout is that of every
    common ABI: members in order of declaration, each at the next multiple of its alignment. *)
From Verif Require Import Base.
Local Open Scope N_scope.

(** sizeof and alignof. *)
(** sizeof and alignof as used at am-storagebuffer.h:52, am-function.h:204, am-hashtable.h:156 and am-fixedarray.h:161. *)
Record ctype := CType { size : N; align : N }.
(** The ABI padding rule, for the structs of am-storagebuffer.h:51-54, am-maybe.h:136-137, am-function.h:212-217, am-hashtable.h:46-49. *)
Definition round_up (x a : N) : N := (x + a - 1) / a * a.
(** Offsets of the members of a struct, starting at [cur], and the end of the last one. *)
(** The ABI layout of struct members, for am-maybe.h:136-137, am-function.h:51-87, 212-217, am-hashtable.h:46-49. *)
Fixpoint place (cur : N) (fs : list ctype) : list N * N :=
  match fs with
  | [] => ([], cur)
  | f :: r => let at_ := round_up cur (align f) in let (os, e) := place (at_ + size f) r in (at_ :: os, e)
  end.
(** Alignment of a struct or union, for am-storagebuffer.h:51-54, am-function.h:212-217. *)
Definition max_align (fs : list ctype) : N := fold_right (fun f m => N.max (align f) m) 1 fs.
(** A struct, for am-maybe.h:136-137, am-function.h:51-87, 212-217, am-hashtable.h:46-49. *)
Definition struct (fs : list ctype) : ctype := CType (round_up (snd (place 0 fs)) (max_align fs)) (max_align fs).
(** offsetof, for am-maybe.h:136-137, am-function.h:51-87, 212-217, am-hashtable.h:46-49. *)
Definition offset (fs : list ctype) (i : nat) : N := nth i (fst (place 0 fs)) 0.
(** Size of a union before padding, for am-storagebuffer.h:51-54, am-function.h:214-217. *)
Definition max_size (fs : list ctype) : N := fold_right (fun f m => N.max (size f) m) 0 fs.
(** A union, for am-storagebuffer.h:51-54, am-function.h:214-217. *)
Definition union (fs : list ctype) : ctype := CType (round_up (max_size fs) (max_align fs)) (max_align fs).
Definition chars (n : N) : ctype := CType n 1.

Section Abi.
Variable p : N.        (* sizeof and alignof a pointer *)
Variable u64 : N.      (* alignof(uint64_t) *)
Variable dalign : N.   (* alignof(double) *)

(** am-storagebuffer.h:51-54: union { char buffer_[sizeof(T)]; uint64_t aligned_; } *)
Definition storage_buffer (t : ctype) : ctype := union [chars (size t); CType 8 u64].
(** am-storagebuffer.h:43-48 address() *)
Definition buffer_address (base : N) : N := base.
(** am-maybe.h:136-137: bool initialized_; StorageBuffer<T> t_; *)
Definition maybe_fields (t : ctype) : list ctype := [CType 1 1; storage_buffer t].
Definition maybe_value (t : ctype) (base : N) : N := buffer_address (base + offset (maybe_fields t) 1).

(** am-function.h:212-217: HolderType* impl_; union { double alignment_; char alias_[3 * sizeof(void* )]; } buffer_; *)
Definition fn_buffer : ctype := union [CType 8 dalign; chars (3 * p)].
Definition function_fields : list ctype := [CType p p; fn_buffer].
(** am-function.h:51-87 FunctionHolder: the pointer to its virtual functions, then obj_. *)
Definition holder_fields (t : ctype) : list ctype := [CType p p; t].
(** am-function.h:204 *)
Definition goes_inline (t : ctype) : bool := size (struct (holder_fields t)) <=? size fn_buffer.
(** am-function.h:174-176 inline_buffer(), 205-206 *)
Definition fn_holder (base : N) : N := base + offset function_fields 1.
Definition fn_callable (t : ctype) (base : N) : N := fn_holder base + offset (holder_fields t) 1.

(** am-hashtable.h:46-49: uint32_t hash_; T t_; *)
Definition entry_fields (t : ctype) : list ctype := [CType 4 4; t].
(** am-hashtable.h:156: am_malloc(capacity * sizeof(Entry)); table[i] *)
Definition entry_at (t : ctype) (table i : N) : N := table + i * size (struct (entry_fields t)).
Definition payload_at (t : ctype) (table i : N) : N := entry_at t table i + offset (entry_fields t) 1.
(** am-fixedarray.h:161: am_malloc(sizeof(T) * size_); data_[i] *)
Definition element_at (t : ctype) (data i : N) : N := data + i * size t.
End Abi.
