(** Model of amtl/am-string.h (formatting, bounded copies, Split/Join, case conversion, prefix/suffix
    tests) and of amtl/os/am-path.h.

    Conventions and simplifications.
    - A byte is an [N] below 256; a buffer is a [list N]; a pointer into a buffer is an offset.  Every read and
      write is bounds checked ([OutOfBounds]).
    - Source and destination are distinct buffers (char* arguments that overlap are outside the model).
    - Loops take fuel; running out of it is the distinct outcome [Diverge].
    - The C library (strlen, strstr, strncmp, memcpy, toupper, vsnprintf) is modelled by its documented
      behaviour; variadic argument lists are abstracted by the text they format to. *)
From Verif Require Import Base.

Section Str.
Variable w : N.          (* width of size_t in bits *)
Variable debug : bool.   (* assertions enabled (NDEBUG not defined) *)
Variable msvc : bool.    (* KE_VSNPRINTF is _vsnprintf: am-string.h:66-70 *)
Variable char_signed : bool.  (* plain char is a signed type *)
Variable windows : bool. (* KE_WINDOWS *)

(** --count on a size_t. *)
(** am-string.h:206, 238. *)
Definition dec (c : nat) : nat := if c =? 0 then N.to_nat (2 ^ w - 1) else c - 1.

(** The characters a C string pointer denotes: everything before the first NUL (None: not terminated). *)
(** The const char* arguments of am-string.h:200-343. *)
Fixpoint cstr_of (buf : list N) : option (list N) :=
  match buf with
  | [] => None
  | c :: t => if N.eqb c 0 then Some []
              else match cstr_of t with Some s => Some (c :: s) | None => None end
  end.

(** std::string(const char* ) / strlen: read up to the terminator; no terminator = read out of bounds. *)
(** Reads of const char* arguments (am-string.h:206, 263-297, 339-343). *)
Definition read_cstr (buf : list N) : outcome (list N) :=
  match cstr_of buf with Some s => Ok s | None => Fault OutOfBounds end.
(** C library strlen, as used at am-string.h:263, 297, 339, 343. *)
Definition strlen (buf : list N) : outcome nat := do s <- read_cstr buf; Ok (length s).

(** memcpy of [bytes] to offset [off] of [buf]. *)
Definition blit (buf : list N) (off : nat) (bytes : list N) : outcome (list N) :=
  if off + length bytes <=? length buf
  then Ok (firstn off buf ++ bytes ++ skipn (off + length bytes) buf)
  else Fault OutOfBounds.

(** * Bounded copies *)

(** am-string.h:205-206: while ( *src && --count) *iter++ = *src++; *)
Fixpoint strcpy_loop (fuel : nat) (dest : list N) (iter : nat) (src : list N) (si count : nat)
  : outcome (list N * nat) :=
  match fuel with
  | O => Diverge
  | S f =>
    do c <- slot_get src si;
    if N.eqb c 0 then Ok (dest, iter)
    else let count := dec count in
         if count =? 0 then Ok (dest, iter)
         else do dest <- slot_set dest iter c;
              strcpy_loop f dest (iter + 1) src (si + 1) count
  end.

(** am-string.h:198-210 SafeStrcpy.  [None] is a null [dest]. *)
Definition safe_strcpy (dest : option (list N)) (maxlength : nat) (src : list N)
  : outcome (option (list N) * nat) :=
  match dest with
  | None => Ok (None, 0)
  | Some d =>
    if maxlength =? 0 then Ok (Some d, 0)
    else do (d, iter) <- strcpy_loop (S (length src)) d 0 src 0 maxlength;
         do d <- slot_set d iter 0%N;
         Ok (Some d, iter)
  end.

(** am-string.h:217-218: while ( *iter) iter++; *)
Fixpoint find_nul (fuel : nat) (dest : list N) (iter : nat) : outcome nat :=
  match fuel with
  | O => Diverge
  | S f => do c <- slot_get dest iter; if N.eqb c 0 then Ok iter else find_nul f dest (iter + 1)
  end.

(** am-string.h:221-222: while ( *src && (size_t(iter - dest) + 1 < maxlength)) *iter++ = *src++; *)
Fixpoint strcat_loop (fuel : nat) (dest : list N) (iter : nat) (maxlength : nat) (src : list N) (si : nat)
  : outcome (list N * nat) :=
  match fuel with
  | O => Diverge
  | S f =>
    do c <- slot_get src si;
    if N.eqb c 0 then Ok (dest, iter)
    else if iter + 1 <? maxlength
         then do dest <- slot_set dest iter c;
              strcat_loop f dest (iter + 1) maxlength src (si + 1)
         else Ok (dest, iter)
  end.

(** am-string.h:213-227 SafeStrcat. *)
Definition safe_strcat (dest : list N) (maxlength : nat) (src : list N) : outcome (list N * nat) :=
  do iter <- find_nul (S (length dest)) dest 0;
  do (dest, iter) <- strcat_loop (S (length src)) dest iter maxlength src 0;
  do dest <- slot_set dest iter 0%N;
  Ok (dest, iter).

(** am-string.h:238-239: while (--count && n--) *iter++ = *src++; *)
Fixpoint strcpyn_loop (fuel : nat) (dest : list N) (iter : nat) (src : list N) (si count n : nat)
  : outcome (list N * nat) :=
  match fuel with
  | O => Diverge
  | S f =>
    let count := dec count in
    if count =? 0 then Ok (dest, iter)
    else if n =? 0 then Ok (dest, iter)
    else do c <- slot_get src si;
         do dest <- slot_set dest iter c;
         strcpyn_loop f dest (iter + 1) src (si + 1) count (n - 1)
  end.

(** am-string.h:230-243 SafeStrcpyN. *)
Definition safe_strcpyn (dest : option (list N)) (maxlength : nat) (src : list N) (n : nat)
  : outcome (option (list N) * nat) :=
  match dest with
  | None => Ok (None, 0)
  | Some d =>
    if (maxlength =? 0) || (n =? 0) then Ok (Some d, 0)
    else do (d, iter) <- strcpyn_loop (S (S (length src))) d 0 src 0 maxlength n;
         do d <- slot_set d iter 0%N;
         Ok (Some d, iter)
  end.

(** * Formatting *)

(** What formatting a given (fmt, arguments) pair produces: a text, or an encoding/overflow error with a
    negative return value, in which case the bytes written (at most n) are unspecified.  C requires an error
    when the text is longer than INT_MAX. *)
(** The (fmt, ap) arguments of vsnprintf (am-string.h:67-69, 101). *)
Inductive formatted :=
| Text (t : list N)
| FmtError (garbage : list N) (ret : Z).

(** The range of the int that vsnprintf returns (am-string.h:101). *)
Definition int_max : Z := 2147483647.
Definition formatted_wf (r : formatted) : Prop :=
  match r with Text t => (Z.of_nat (length t) <= int_max)%Z | FmtError _ ret => (- int_max - 1 <= ret < 0)%Z end.

(** KE_VSNPRINTF(buf, n, ...) (am-string.h:66-70): C99 vsnprintf, or the MSVC _vsnprintf, which does not
    terminate when the text does not fit and returns -1 when it is longer than n. *)
Definition ke_vsnprintf (buf : list N) (n : nat) (r : formatted) : outcome (list N * Z) :=
  match r with
  | FmtError g ret => do b <- blit buf 0 (firstn n g); Ok (b, ret)
  | Text t =>
    if msvc then
      if length t <? n then do b <- blit buf 0 (t ++ [0%N]); Ok (b, Z.of_nat (length t))
      else do b <- blit buf 0 (firstn n t);
           Ok (b, if length t =? n then Z.of_nat (length t) else (-1)%Z)
    else
      if n =? 0 then Ok (buf, Z.of_nat (length t))
      else do b <- blit buf 0 (firstn (n - 1) t ++ [0%N]); Ok (b, Z.of_nat (length t))
  end.

(** Measuring pass, am-string.h:96-102: _vscprintf on MSVC, otherwise vsnprintf into char tmp[2]. *)
Definition measure (r : formatted) : outcome Z :=
  if msvc then Ok (match r with Text t => Z.of_nat (length t) | FmtError _ _ => (-1)%Z end)
  else do (_, len) <- ke_vsnprintf [0%N; 0%N] 2 r; Ok len.

(** len + 1 on int. *)
Definition int_succ (x : Z) : outcome Z := if Z.eqb x int_max then Fault SignedOverflow else Ok (x + 1)%Z.

(** am-string.h:88-131 SprintfArgsImpl.  [r1], [r2]: the results of the two formatting passes.  Result: the
    buffer (None = null unique_ptr) and *out_len.  std::bad_alloc thrown by make_unique is not modelled. *)
Definition sprintf_args_impl (r1 r2 : formatted) : outcome (option (list N) * nat) :=
  do len <- measure r1;
  if (len <? 0)%Z then Ok (None, 0)
  else if (len =? 0)%Z then Ok (Some [0%N], 0)
  else
    do size <- int_succ len;
    let buffer := repeat 0%N (Z.to_nat size) in
    do size2 <- int_succ len;
    do (buffer, new_len) <- ke_vsnprintf buffer (Z.to_nat size2) r2;
    if (new_len <? 0)%Z then Ok (None, 0)
    else do _ <- assert_ debug (len =? new_len)%Z;
         Ok (Some buffer, Z.to_nat new_len).

(** am-string.h:135-150 SprintfArgs, Sprintf. *)
Definition sprintf (r1 r2 : formatted) : outcome (option (list N)) :=
  do (b, _) <- sprintf_args_impl r1 r2; Ok b.

(** am-string.h:178-196 StringPrintfVa, StringPrintf: std::string(result.get(), len). *)
Definition string_printf (r1 r2 : formatted) : outcome (list N) :=
  do (b, len) <- sprintf_args_impl r1 r2;
  match b with
  | None => Ok []
  | Some buf => if len <=? length buf then Ok (firstn len buf) else Fault OutOfBounds
  end.

(** Conversion of an int to size_t (am-string.h:158). *)
Definition size_of_int (x : Z) : N := Z.to_N (x mod 2 ^ Z.of_N w).

(** am-string.h:152-166 SafeVsprintf; 168-176 SafeSprintf only packages the arguments. *)
Definition safe_sprintf (buffer : list N) (maxlength : nat) (r : formatted) : outcome (list N * nat) :=
  if maxlength =? 0 then Ok (buffer, 0)
  else do (buffer, ret) <- ke_vsnprintf buffer maxlength r;
       let len := size_of_int ret in
       if (N.of_nat maxlength <=? len)%N
       then do buffer <- slot_set buffer (maxlength - 1) 0%N; Ok (buffer, maxlength - 1)
       else Ok (buffer, N.to_nat len).

(** am-path.h:43-50: the separator loop over dest[0..len). *)
Definition native_sep (c : N) : N :=
  if windows then (if N.eqb c 47 then 92 else c)%N       (* '/' -> '\\' *)
  else (if N.eqb c 92 then 47 else c)%N.                 (* '\\' -> '/' *)
Fixpoint sep_loop (steps : nat) (dest : list N) (i : nat) : outcome (list N) :=
  match steps with
  | O => Ok dest
  | S k => do c <- slot_get dest i;
           do dest <- slot_set dest i (native_sep c);
           sep_loop k dest (i + 1)
  end.

(** am-path.h:39-62 FormatVa, Format. *)
Definition path_format (dest : list N) (maxlength : nat) (r : formatted) : outcome (list N * nat) :=
  do (dest, len) <- safe_sprintf dest maxlength r;
  do dest <- sep_loop len dest 0;
  Ok (dest, len).

(** * Split and Join *)

(** Part of strstr (am-string.h:271). *)
Fixpoint is_prefix (p s : list N) : bool :=
  match p, s with
  | [], _ => true
  | a :: p', b :: s' => N.eqb a b && is_prefix p' s'
  | _ :: _, [] => false
  end.

(** Offset of the leftmost occurrence of [needle] in [s]. *)
(** C library strstr, as used at am-string.h:271. *)
Fixpoint find_sub (needle s : list N) : option nat :=
  if is_prefix needle s then Some 0
  else match s with
       | [] => None
       | _ :: t => match find_sub needle t with Some k => Some (S k) | None => None end
       end.

(** strstr(buf + off, needle): the absolute offset of the match. *)
Definition strstr (buf : list N) (off : nat) (needle : list N) : outcome (option nat) :=
  do s <- read_cstr (skipn off buf);
  Ok (match find_sub needle s with Some k => Some (off + k) | None => None end).

(** am-string.h:270-277. *)
Fixpoint split_loop (fuel : nat) (str : list N) (sep : list N) (cursor : nat) (mtch : option nat)
    (out : list (list N)) : outcome (nat * option nat * list (list N)) :=
  match fuel with
  | O => Diverge
  | S f =>
    do c <- slot_get str cursor;
    if N.eqb c 0 then Ok (cursor, mtch, out)
    else do m <- strstr str cursor sep;
         match m with
         | None => Ok (cursor, None, out)
         | Some p => split_loop f str sep (p + length sep) (Some p)
                       (out ++ [firstn (p - cursor) (skipn cursor str)])
         end
  end.

(** am-string.h:260-282 Split(const char*, const char* ); [str] and [split] are the two buffers. *)
Definition split (str split : list N) : outcome (list (list N)) :=
  do sep <- read_cstr split;
  do _ <- assert_ debug (0 <? length sep);
  do (cursor, mtch, out) <- split_loop (S (length str)) str sep 0 None [];
  do c <- slot_get str cursor;
  if negb (N.eqb c 0) || (match mtch with Some _ => true | None => false end)
  then do last <- read_cstr (skipn cursor str); Ok (out ++ [last])
  else Ok out.

(** str.c_str(): the string's bytes and the terminator. *)
Definition c_str (s : list N) : list N := s ++ [0%N].

(** am-string.h:284-288 Split(const std::string&, const char* ). *)
Definition split_string (str : list N) (sep : list N) : outcome (list (list N)) := split (c_str str) sep.

(** am-string.h:297-303: size_t arithmetic. *)
Definition join_len (pieces : list (list N)) (sep_len : nat) : N :=
  let n := fold_left (fun acc p => uadd w acc (N.of_nat (length p))) pieces 0%N in
  if (match pieces with [] => true | _ => false end) then n
  else uadd w n (umul w (N.of_nat sep_len) (N.of_nat (length pieces - 1))).

(** am-string.h:311-319: the copying loop; [more] = pieces after the current one. *)
Fixpoint join_loop (pieces : list (list N)) (sep : list N) (buffer : list N) (iter : nat)
  : outcome (list N * nat) :=
  match pieces with
  | [] => Ok (buffer, iter)
  | p :: more =>
    do buffer <- blit buffer iter p;
    let iter := iter + length p in
    match more with
    | [] => Ok (buffer, iter)
    | _ => do buffer <- blit buffer iter sep;
           join_loop more sep buffer (iter + length sep)
    end
  end.

(** am-string.h:294-322 Join. *)
Definition join (pieces : list (list N)) (sep : list N) : outcome (list N) :=
  do sep <- read_cstr sep;
  let buffer_len := join_len pieces (length sep) in
  let buffer := repeat 0%N (N.to_nat buffer_len) in
  do (buffer, iter) <- join_loop pieces sep buffer 0;
  do _ <- assert_ debug (iter =? N.to_nat buffer_len);
  Ok buffer.

(** * Case conversion and prefix/suffix tests *)

(** char to int promotion. *)
(** The conversion of result[i] to the argument of toupper / tolower (am-string.h:327, 334). *)
Definition char_to_int (c : N) : Z :=
  if char_signed && (128 <=? c)%N then (Z.of_N c - 256)%Z else Z.of_N c.

(** toupper / tolower in the "C" locale: defined on [0,255] and EOF (-1) only. *)
(** The domain of toupper / tolower (am-string.h:327, 334). *)
Definition in_ctype_domain (x : Z) : bool := ((x =? -1) || (0 <=? x) && (x <=? 255))%Z.
(** C library toupper, as used at am-string.h:327. *)
Definition toupper (x : Z) : outcome Z :=
  if in_ctype_domain x then Ok (if ((97 <=? x) && (x <=? 122))%Z then (x - 32)%Z else x) else Fault BadArg.
(** C library tolower, as used at am-string.h:334. *)
Definition tolower (x : Z) : outcome Z :=
  if in_ctype_domain x then Ok (if ((65 <=? x) && (x <=? 90))%Z then (x + 32)%Z else x) else Fault BadArg.

(** int to char. *)
Definition int_to_char (x : Z) : N := Z.to_N (x mod 256).

(** for (i...) result[i] = f(result[i]); am-string.h:326-327, 333-334. *)
Fixpoint map_chars (f : Z -> outcome Z) (s : list N) : outcome (list N) :=
  match s with
  | [] => Ok []
  | c :: t => do x <- f (char_to_int c); do t' <- map_chars f t; Ok (int_to_char x :: t')
  end.

(** am-string.h:324-329 Uppercase; 331-336 Lowercase. *)
Definition uppercase (str : list N) : outcome (list N) := do s <- read_cstr str; map_chars toupper s.
Definition lowercase (str : list N) : outcome (list N) := do s <- read_cstr str; map_chars tolower s.

(** strncmp(a, b, n) == 0 on buffers. *)
Fixpoint strncmp_eq (n : nat) (a b : list N) : outcome bool :=
  match n with
  | O => Ok true
  | S k =>
    match a, b with
    | x :: a', y :: b' =>
      if negb (N.eqb x y) then Ok false
      else if N.eqb x 0 then Ok true else strncmp_eq k a' b'
    | _, _ => Fault OutOfBounds
    end
  end.

(** am-string.h:338-344 StartsWith, both overloads (the std::string one passes first.c_str()). *)
Definition starts_with (first other : list N) : outcome bool :=
  do n <- strlen other; strncmp_eq n first other.
Definition starts_with_string (first other : list N) : outcome bool := starts_with (c_str first) other.

(** am-string.h:346-349 EndsWith on std::strings; substr(pos, n) throws when pos > size(). *)
Definition list_eqb (a b : list N) : bool := if list_eq_dec N.eq_dec a b then true else false.
Definition ends_with (first second : list N) : outcome bool :=
  if length second <=? length first
  then if length first - length second <=? length first
       then Ok (list_eqb (firstn (length second) (skipn (length first - length second) first)) second)
       else Fault Abort
  else Ok false.

End Str.
