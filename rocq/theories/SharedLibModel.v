(** Model of amtl/os/am-shared-library.h and amtl/os/am-system-errors.h, on top of the model of Refcounted, RefPtr and
    AlreadyRefed (RefcountModel.v).

    The system is an oracle: dlopen / LoadLibrary gives a handle or fails; dlerror, FormatMessage, strerror_r give
    texts.  [new] does not fail.  A SharedLib is a Refcounted object without RefPtr members; other (client) objects with
    RefPtr members exist alongside, so that libraries may be kept alive by data structures. *)
From Verif Require Import Base RefcountModel StrModel.
Local Open Scope nat_scope.

Notation handle := nat (only parsing).
(** lib_ of every object ever created, by object number ([None]: null, or not a SharedLib); the system calls made. *)
(** lib_ (am-shared-library.h:116) of every object, and the calls at am-shared-library.h:62-64, 72-74. *)
Record world := World { rs : state; libs : list (option handle); opened : list handle; closed : list handle }.

(** lib_ (am-shared-library.h:116). *)
Definition lib_of (ls : list (option handle)) (o : nat) : option handle :=
  match nth_error ls o with Some x => x | None => None end.
Definition as_list {A} (x : option A) : list A := match x with Some a => [a] | None => [] end.

(** am-shared-library.h:67-76: ~SharedLib, for the objects destroyed by the step, in the order of destruction (the
    refcounting model logs them most recent first). *)
Definition destroyed (s s' : state) : list nat := rev (firstn (length (log (hp s')) - length (log (hp s))) (log (hp s'))).
Definition run_destructors (ls : list (option handle)) (os : list nat) : list handle := flat_map (fun o => as_list (lib_of ls o)) os.

(** One refcounting operation; an object created by it gets [lib] as its lib_. *)
(** am-refcounting.h:51-318 with the constructors and destructor of am-shared-library.h:54-76. *)
Definition ref_step (debug : bool) (x : world) (o : op) (lib : option handle) : outcome world :=
  do s' <- step debug (rs x) o;
  let ls := libs x ++ repeat lib (length (objs (hp s')) - length (libs x)) in
  Ok (World s' ls (opened x) (closed x ++ run_destructors ls (destroyed (rs x) s'))).

(** Client calls of am-shared-library.h:54-117 and am-refcounting.h:51-318; not code of /repo. *)
Inductive event :=
| Ref (o : op)                          (* anything clients do with RefPtr / AlreadyRefed; objects created by it are
                                           client objects or default-constructed SharedLibs (54-56) *)
| FromHandle (v : nat) (h : handle)     (* RefPtr v(new SharedLib(h)), 57-59: takes over a handle *)
| FromPath (v : nat) (r : option handle)       (* RefPtr v(new SharedLib(path)), 60-66; r: what dlopen returns *)
| Open (v tmp : nat) (r : option handle).      (* AlreadyRefed v = SharedLib::Open(path), 82-96; tmp: its local *)

(** The call of dlopen / LoadLibraryA at am-shared-library.h:62-64. *)
Definition did_open (x : world) (r : option handle) : world := World (rs x) (libs x) (opened x ++ as_list r) (closed x).

(** One client call; Open is am-shared-library.h:82-96. *)
Definition ev_step (debug : bool) (x : world) (e : event) : outcome world :=
  match e with
  | Ref o => ref_step debug x o None
  | FromHandle v h => ref_step debug (did_open x (Some h)) (CtorNew v 0) (Some h)
  | FromPath v r => ref_step debug (did_open x r) (CtorNew v 0) r
  | Open v tmp r =>
      do x <- ref_step debug (did_open x r) (CtorNew tmp 0) r;              (* 84 *)
      match r with
      | None => do x <- ref_step debug x (AlNull v) None;                   (* 87, 93: return nullptr *)
                ref_step debug x (Destroy tmp) None                         (* ~RefPtr of the local *)
      | Some _ => do x <- ref_step debug x (Take v (LVar tmp)) None;        (* 95: lib.forget() *)
                  ref_step debug x (Destroy tmp) None
      end
  end.
(** A sequence of client calls of am-shared-library.h:54-117. *)
Fixpoint ev_run (debug : bool) (x : world) (es : list event) : outcome world :=
  match es with [] => Ok x | e :: r => do x <- ev_step debug x e; ev_run debug x r end.
(** Before the first call of am-shared-library.h:54-117. *)
Definition fresh (n : nat) : world := World (init n) [] [] [].

(** 98-104: lookup() on the object a handle variable points to: dlsym on its lib_. *)
Definition lookup (x : world) (o : nat) : outcome (option handle) :=
  do _ <- get_alive (hp (rs x)) o; Ok (lib_of (libs x) o).

(** * am-system-errors.h:43-67 *)
Inductive system :=
| Windows (message : option (list N)) (junk : list N) (code_text : list N)
    (* FormatMessageA: the message, if there is one; what a failing call leaves in the buffer; "error code %08x" *)
| Glibc (in_buffer : bool) (message : list N)
    (* GNU strerror_r: composes the message in the buffer, or returns a pointer to a static string *)
| Posix (message : list N) (junk : list N).
    (* XSI strerror_r: the message, if it fits; otherwise ERANGE and an unspecified buffer *)

(** [error] is a buffer of at least [maxlength] bytes. *)
(** am-system-errors.h:43-67. *)
Definition format_system_error (w : N) (msvc : bool) (sys : system) (error : list N) (maxlength : nat) : outcome (list N) :=
  match sys with
  | Windows message junk code_text =>
      match (match message with Some t => if length t <? maxlength then Some t else None | None => None end) with
      | Some t => blit error 0 (t ++ [0%N])                                                         (* 46 *)
      | None => do error <- blit error 0 (firstn maxlength junk);
                do (error, _) <- safe_sprintf w msvc error maxlength (Text code_text); Ok error     (* 48 *)
      end
  | Glibc true message =>                                                                           (* 52 *)
      if maxlength =? 0 then Ok error else blit error 0 (firstn (maxlength - 1) message ++ [0%N])
  | Glibc false message => do (error, _) <- safe_sprintf w msvc error maxlength (Text message); Ok error   (* 54 *)
  | Posix message junk =>                                                                           (* 56 *)
      if length message <? maxlength then blit error 0 (message ++ [0%N]) else blit error 0 (firstn maxlength junk)
  end.

(** am-shared-library.h:85-93: what Open does with its error buffer; [dlerror] is the text of dlerror() as a buffer. *)
Definition open_error (windows : bool) (w : N) (msvc : bool) (sys : system) (dlerror : list N) (r : option handle)
  (error : option (list N)) (maxlength : nat) : outcome (option (list N)) :=
  match r, error with
  | Some _, _ => Ok error
  | None, None => Ok error                                                                          (* 86 *)
  | None, Some buf =>
      if maxlength =? 0 then Ok error                                                               (* 86 *)
      else if windows then do buf <- format_system_error w msvc sys buf maxlength; Ok (Some buf)    (* 89 *)
      else do (b, _) <- safe_strcpy w error maxlength dlerror; Ok b                                 (* 91 *)
  end.
