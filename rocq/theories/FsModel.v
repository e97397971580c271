(** Model of amtl/os/am-fsutil-posix.h and am-fsutil-windows.h, over a model of the file system of the POSIX calls stat and
    mkdir: numbered files, directories, symbolic links.  Paths are lists of names (a trailing slash, and limits on the length of
    names, are not modelled).  Every failure of a system call is None: the code only tests the result against 0. *)
From Verif Require Import Base.
Local Open Scope nat_scope.

(** A file: regular, special (device, pipe, socket), symbolic link to a path, or directory, which maps names to file numbers (the
    entries "." and ".." included); the caller may have the right to change it and to search it. *)
(** What the mode tests of am-fsutil-posix.h:44-58 distinguish. *)
Inductive node := NReg | NSpecial | NLink (absolute : bool) (target : list N) | NDir (entry : N -> option nat) (writable searchable : bool).
(** The file system behind stat and mkdir (am-fsutil-posix.h:40, 47, 55, 62). *)
Definition disk := nat -> option node.
(** The directory entries "." and "..", not code of /repo; part of mkdir at am-fsutil-posix.h:62. *)
Definition dot : N := 46%N. Definition dotdot : N := 11822%N.

Section Posix.
Variable root cwd : nat.

(** Path resolution: at most [links] symbolic links are followed (ELOOP). *)
(** Path resolution as done by stat and mkdir (am-fsutil-posix.h:40, 47, 55, 62). *)
Fixpoint walk (f : disk) (links : nat) : nat -> list N -> option nat :=
  fix go (cur : nat) (cs : list N) : option nat :=
  match cs with
  | [] => match f cur with Some _ => Some cur | None => None end
  | c :: r =>
      match f cur with
      | Some (NDir entry _ true) =>
          match entry c with
          | None => None
          | Some i =>
              match f i with
              | None => None
              | Some (NLink absolute target) =>
                  match links with O => None | S l => walk f l (if absolute then root else cur) (target ++ r) end
              | Some _ => go i r
              end
          end
      | _ => None
      end
  end.
(** The argument path of am-fsutil-posix.h:37-63. *)
Record path := Path { absolute : bool; names : list N }.
(** Where path resolution begins (am-fsutil-posix.h:40, 47, 55, 62). *)
Definition start (p : path) : nat := if absolute p then root else cwd.
(** The limit on symbolic links in path resolution (am-fsutil-posix.h:40, 47, 55, 62). *)
Definition max_links : nat := 40.
(** stat(path, &s): the file, or None if the result is not 0. *)
(** The system call stat of am-fsutil-posix.h:40, 47, 55. *)
Definition stat (f : disk) (p : path) : option node :=
  match walk f max_links (start p) (names p) with Some i => f i | None => None end.
(** mkdir(path, mode): the result is not 0 (None), or the new disk.  [room]: the number the new directory gets, None if there is no
    space; [w], [x]: the rights [mode] gives the caller. *)
(** The update made by mkdir (am-fsutil-posix.h:62). *)
Definition put (f : disk) (i : nat) (n : node) : disk := fun j => if i =? j then Some n else f j.
Definition mkdir (f : disk) (p : path) (w x : bool) (room : option nat) : option disk :=
  match rev (names p) with
  | [] => None
  | c :: parent =>
      match walk f max_links (start p) (rev parent) with
      | None => None
      | Some d =>
          match f d with
          | Some (NDir entry true true) =>
              match entry c, room with
              | None, Some i =>
                  let ents k := if N.eqb k c then Some i else entry k in
                  let own k := if N.eqb k dot then Some i else if N.eqb k dotdot then Some d else None in
                  Some (put (put f d (NDir ents true true)) i (NDir own w x))
              | _, _ => None
              end
          | _ => None
          end
      end
  end.

(** am-fsutil-posix.h:38-42 *)
Definition PathExists (f : disk) (p : path) : bool := match stat f p with Some _ => true | None => false end.
(** am-fsutil-posix.h:44-50 *)
Definition IsFile (f : disk) (p : path) : bool := match stat f p with Some NReg => true | _ => false end.
(** am-fsutil-posix.h:52-58 *)
Definition IsDirectory (f : disk) (p : path) : bool := match stat f p with Some (NDir _ _ _) => true | _ => false end.
(** am-fsutil-posix.h:60-63 *)
Definition CreateDirectory (f : disk) (p : path) (w x : bool) (room : option nat) : bool * disk :=
  match mkdir f p w x room with Some g => (true, g) | None => (false, f) end.
End Posix.

(** ** Windows: [attr] is what GetFileAttributesA returns, a 32-bit number. *)
(** The constants tested at am-fsutil-windows.h:39-60. *)
Definition INVALID_FILE_ATTRIBUTES : N := 4294967295%N.
Definition FILE_ATTRIBUTE_DIRECTORY : N := 16%N.
Definition FILE_ATTRIBUTE_DEVICE : N := 64%N.
(** am-fsutil-windows.h:39-42 *)
Definition WinPathExists (attr : N) : bool := negb (N.eqb attr INVALID_FILE_ATTRIBUTES).
(** am-fsutil-windows.h:44-52 *)
Definition WinIsFile (attr : N) : bool :=
  if N.eqb attr INVALID_FILE_ATTRIBUTES then false
  else if negb (N.eqb (N.land attr (N.lor FILE_ATTRIBUTE_DIRECTORY FILE_ATTRIBUTE_DEVICE)) 0) then false
  else true.
(** am-fsutil-windows.h:54-60 *)
Definition WinIsDirectory (attr : N) : bool :=
  if N.eqb attr INVALID_FILE_ATTRIBUTES then false
  else N.eqb (N.land attr (N.lor FILE_ATTRIBUTE_DIRECTORY FILE_ATTRIBUTE_DEVICE)) FILE_ATTRIBUTE_DIRECTORY.
