(** Model of ke::Function (amtl/am-function.h) whose callables own Functions themselves: closures that capture Functions, and the
    holders made when a Function is initialised from a non-const lvalue Function, which the constructor and assignment templates
    (am-function.h:114-117, 139-144) take for a callable.

    FunctionModel.v and FnReenterModel.v cover callables without Functions inside.  Simplifications: callables run no commands
    when copied, moved, called or destroyed; a callable is its class and its captured Functions; arguments and results are left
    out.  [fuel] bounds the nesting of holders. *)
From Verif Require Import Base.

(** impl_ (am-function.h:213): null, the address of the own buffer, or a holder on the heap. *)
Inductive ptr := PNull | PIn | PHeap (b : nat).
(** A Function (am-function.h:213-217): impl_, and the class of the callable alive in buffer_. *)
Record cell := Cell { impl : ptr; buf : option nat }.
(** A FunctionHolder on the heap (am-function.h:51-87): its callable is a class and the captured Functions. *)
Record block := Block { cls : nat; caps : list cell }.
(** The Functions of the program that no callable captures, and the holders; a freed holder is None (am-function.h:166). *)
Record world := World { globs : list cell; heap : list (option block) }.
(** Where a Function is: a variable, or the k-th capture of a holder (am-function.h:86). *)
Inductive loc := Glob (n : nat) | Cap (b k : nat).
(** How client code names a Function: a variable, then captures of captures (obj_ of am-function.h:86). *)
Definition path := (nat * list nat)%type.
(** The argument of a constructor or assignment: a const lvalue Function, a non-const one, or std::move of one
    (am-function.h:107-117, 128-144). *)
Inductive mode := Const | NonConst | Moved.
(** Statements of client code. *)
Inductive cmd :=
| Clear (p : path)                                  (* f = nullptr;                               am-function.h:123-127 *)
| Assign (p : path) (m : mode) (q : path)           (* f = g; or f = std::move(g);                am-function.h:128-144 *)
| Set_ (p : path) (c : nat) (qs : list (path * mode)) (* f = C(...), capturing copies or moves;   am-function.h:139-144 *)
| Call (p : path).                                  (* if (f) f();                                am-function.h:146-153 *)
(** What a call can reach: the callable and what its captured Functions hold (am-function.h:71-73, 150-153). *)
Inductive tree := Node (c : nat) (vs : list (option tree)).
(** The class of the callable Function itself, when a non-const Function is taken for a callable (am-function.h:199-210). *)
Definition wrapper : nat := 0.

Section FnNest.
(** Whether a holder of class c without captures fits into buffer_ (am-function.h:204); one with captured Functions never does:
    a Function is larger than the three words of buffer_ (am-function.h:89, 213-217). *)
Variable small : nat -> bool.

(** A holder that has not been freed (am-function.h:152, 166, 182-184). *)
Definition live (h : list (option block)) (b : nat) : outcome block :=
  match nth_error h b with Some (Some x) => Ok x | Some None => Fault UseAfterFree | None => Fault OutOfBounds end.
(** Reading and writing a Function (am-function.h:213-217). *)
Definition get (s : world) (l : loc) : outcome cell :=
  match l with Glob n => slot_get (globs s) n | Cap b k => do x <- live (heap s) b; slot_get (caps x) k end.
Definition put (s : world) (l : loc) (x : cell) : outcome world :=
  match l with
  | Glob n => do g <- slot_set (globs s) n x; Ok (World g (heap s))
  | Cap b k => do y <- live (heap s) b; do c <- slot_set (caps y) k x; Ok (World (globs s) (upd (heap s) b (Some (Block (cls y) c))))
  end.
(** Finding a Function by its name (obj_ of am-function.h:86). *)
Fixpoint walk (s : world) (l : loc) (ks : list nat) : outcome loc :=
  match ks with
  | [] => Ok l
  | k :: ks => do x <- get s l; match impl x with PHeap b => walk s (Cap b k) ks | _ => Fault BadArg end
  end.
Definition resolve (s : world) (p : path) : outcome loc := walk s (Glob (fst p)) (snd p).

(** destroy(): am-function.h:160-168; ~Function: 119-121.  The destructor of a callable destroys its captures (70). *)
Fixpoint destroy_cell (fuel : nat) (h : list (option block)) (x : cell) : outcome (list (option block)) :=
  match fuel with
  | O => Diverge
  | S fuel =>
      match impl x with
      | PNull => Ok h
      | PIn => match buf x with Some _ => Ok h | None => Fault UseAfterFree end
      | PHeap b =>
          do y <- live h b;
          do h <- (fix each (h : list (option block)) (xs : list cell) := match xs with
                   | [] => Ok h | x :: xs => do h <- destroy_cell fuel h x; each h xs end) h (caps y);
          do _ <- live h b; Ok (upd h b None)
      end
  end.
Definition destroy_cells (fuel : nat) : list (option block) -> list cell -> outcome (list (option block)) :=
  fix each (h : list (option block)) (xs : list cell) := match xs with
  | [] => Ok h | x :: xs => do h <- destroy_cell fuel h x; each h xs end.
(** Function(const Function&) with assign(): am-function.h:107-109, 178-185; clone(): 74-79; FunctionHolder(const FunctionHolder&):
    56-58.  The copy of a callable copies its captures. *)
Fixpoint copy_cell (fuel : nat) (h : list (option block)) (x : cell) : outcome (list (option block) * cell) :=
  match fuel with
  | O => Diverge
  | S fuel =>
      match impl x with
      | PNull => Ok (h, Cell PNull None)
      | PIn => match buf x with Some c => Ok (h, Cell PIn (Some c)) | None => Fault UseAfterFree end
      | PHeap b =>
          do y <- live h b;
          do (h, cs) <- (fix each (h : list (option block)) (xs : list cell) : outcome (list (option block) * list cell) := match xs with
                   | [] => Ok (h, [])
                   | x :: xs => do (h, c) <- copy_cell fuel h x; do (h, cs) <- each h xs; Ok (h, c :: cs) end) h (caps y);
          Ok (h ++ [Some (Block (cls y) cs)], Cell (PHeap (length h)) None)
      end
  end.
Definition copy_cells (fuel : nat) : list (option block) -> list cell -> outcome (list (option block) * list cell) :=
  fix each (h : list (option block)) (xs : list cell) : outcome (list (option block) * list cell) := match xs with
  | [] => Ok (h, [])
  | x :: xs => do (h, c) <- copy_cell fuel h x; do (h, cs) <- each h xs; Ok (h, c :: cs) end.

(** destroy() on a Function of the program: am-function.h:160-168; impl_ keeps its value. *)
Definition destroy (fuel : nat) (s : world) (l : loc) : outcome world :=
  do x <- get s l; do h <- destroy_cell fuel (heap s) x; put (World (globs s) h) l (Cell (impl x) None).
(** zap(): am-function.h:169-172. *)
Definition zap (fuel : nat) (s : world) (l : loc) : outcome world :=
  do s <- destroy fuel s l; do x <- get s l; put s l (Cell PNull (buf x)).
(** impl_ gets its new value (am-function.h:180-185, 205-208); a callable still alive in buffer_ would be lost. *)
Definition place (s : world) (l : loc) (y : cell) : outcome world :=
  do x <- get s l; match buf x with Some _ => Fault Leak | None => put s l y end.
(** A new Function from another one: am-function.h:107-117.  From a non-const lvalue: a holder with a copy of it (114-117, 199-210). *)
Definition take (fuel : nat) (s : world) (l : loc) (m : mode) : outcome (world * cell) :=
  do x <- get s l;
  match m with
  | Const => do (h, y) <- copy_cell fuel (heap s) x; Ok (World (globs s) h, y)
  | NonConst => do (h, y) <- copy_cell fuel (heap s) x;
                Ok (World (globs s) (h ++ [Some (Block wrapper [y])]), Cell (PHeap (length h)) None)
  | Moved => match impl x with                                               (* move(): 187-197 *)
             | PNull => Ok (s, Cell PNull None)
             | PIn => match buf x with
                      | Some c => do s <- zap fuel s l; Ok (s, Cell PIn (Some c))
                      | None => Fault UseAfterFree
                      end
             | PHeap b => do s <- put s l (Cell PNull (buf x)); Ok (s, Cell (PHeap b) None)
             end
  end.
(** move() in an assignment: am-function.h:187-197. *)
Definition move (fuel : nat) (s : world) (l g : loc) : outcome world :=
  do y <- get s g;
  match impl y with
  | PNull => do x <- get s l; put s l (Cell PNull (buf x))
  | PIn => match buf y with
           | Some c => do s <- place s l (Cell PIn (Some c)); zap fuel s g
           | None => Fault UseAfterFree
           end
  | PHeap b => do s <- place s l (Cell (PHeap b) None); do y <- get s g; put s g (Cell PNull (buf y))
  end.
(** The captures of a closure, initialised in order (am-function.h:107-117). *)
Fixpoint captures (fuel : nat) (s : world) (qs : list (path * mode)) : outcome (world * list cell) :=
  match qs with
  | [] => Ok (s, [])
  | (q, m) :: qs =>
      do g <- resolve s q; do (s, y) <- take fuel s g m; do (s, ys) <- captures fuel s qs; Ok (s, y :: ys)
  end.
(** Calling a Function: what its callable and the captured Functions are at this moment (am-function.h:71-73, 150-153). *)
Fixpoint observe (fuel : nat) (h : list (option block)) (x : cell) : outcome (option tree) :=
  match fuel with
  | O => Diverge
  | S fuel =>
      match impl x with
      | PNull => Ok None
      | PIn => match buf x with Some c => Ok (Some (Node c [])) | None => Fault UseAfterFree end
      | PHeap b =>
          do y <- live h b;
          do vs <- (fix each (xs : list cell) := match xs with
                    | [] => Ok [] | x :: xs => do v <- observe fuel h x; do vs <- each xs; Ok (v :: vs) end) (caps y);
          Ok (Some (Node (cls y) vs))
      end
  end.
(** One statement: am-function.h:123-153; what a call saw is its second result. *)
Definition step (fuel : nat) (s : world) (k : cmd) : outcome (world * list (option tree)) :=
  match k with
  | Clear p => do l <- resolve s p; do s <- zap fuel s l; Ok (s, [])                                   (* 123-127 *)
  | Assign p m q =>
      do l <- resolve s p; do g <- resolve s q; do s <- destroy fuel s l;
      match m with
      | Moved => do s <- move fuel s l g; Ok (s, [])                                                   (* 133-137 *)
      | _ => do (s, y) <- take fuel s g m; do s <- place s l y; Ok (s, [])                             (* 128-132, 139-144 *)
      end
  | Set_ p c qs =>
      (* the closure is a temporary with the captures ys; operator = copies it (141-142, 199-210), then it is destroyed *)
      do (s, ys) <- captures fuel s qs;
      do l <- resolve s p; do s <- destroy fuel s l;
      do (h, y) <- match qs with
                   | [] => if small c then Ok (heap s, Cell PIn (Some c))
                           else Ok (heap s ++ [Some (Block c [])], Cell (PHeap (length (heap s))) None)
                   | _ => do (h, cs) <- copy_cells fuel (heap s) ys;
                          Ok (h ++ [Some (Block c cs)], Cell (PHeap (length h)) None)
                   end;
      do s <- place (World (globs s) h) l y;
      do h <- destroy_cells fuel (heap s) ys; Ok (World (globs s) h, [])
  | Call p => do l <- resolve s p; do x <- get s l; do v <- observe fuel (heap s) x; Ok (s, [v])       (* 146-153 *)
  end.
(** A client program over Functions that are empty at first (am-function.h:101-103), and the end of their scope: ~Function of each
    (am-function.h:119-121). *)
Fixpoint run_from (fuel : nat) (s : world) (ks : list cmd) : outcome (world * list (option tree)) :=
  match ks with
  | [] => Ok (s, [])
  | k :: ks => do (s, e) <- step fuel s k; do (s, es) <- run_from fuel s ks; Ok (s, e ++ es)
  end.
Definition start (n : nat) : world := World (repeat (Cell PNull None) n) [].
Definition run (fuel n : nat) (ks : list cmd) : outcome (world * list (option tree)) := run_from fuel (start n) ks.
Definition finish (fuel : nat) (s : world) : outcome (list (option block)) := destroy_cells fuel (heap s) (globs s).
End FnNest.
