(** Model of the engine's string class, /repo/src/base/String.cpp, String.h, and of the
    script-visible functions of /repo/src/core/object/StringScriptObjectZs.cpp built on it.

    A char is a byte 0..255 (only equality and ASCII ranges are ever tested). A C buffer is
    a list of bytes, all initialised: zs_malloc (Memory.cpp:9-20) and inc_slots (String.cpp:67)
    zero what they allocate. The C library functions (strlen, strcpy, strncpy, strcat,
    memcpy, strcmp, strncmp, strchr, strstr) are given their standard meaning on such
    buffers; leaving a buffer is [UB].

    Simplifications: [int] arithmetic on lengths does not overflow (strings shorter than
    2^30); allocation never fails; a library call with count 0 accesses nothing, even
    through a NULL pointer; Vector<String>::push inside split always succeeds (the Vector
    model, C01/C65, covers its limits). *)
From Coq Require Import List ZArith Bool Lia.
From Verif Require Import Base.
Import ListNotations.
Open Scope Z_scope.

(** Result of a call: value, C++ exception, undefined behaviour, or still running when the
    step bound given to a model loop is used up. *)
Inductive res (A : Type) : Type := Ok (a : A) | Thr | UB | Loop.
Arguments Ok {A}. Arguments Thr {A}. Arguments UB {A}. Arguments Loop {A}.

Definition rbind {A B} (m : res A) (f : A -> res B) : res B :=
  match m with Ok a => f a | Thr => Thr | UB => UB | Loop => Loop end.
Notation "'do' x <- m ; f" := (rbind m (fun x => f)) (at level 60, x name, right associativity).

Definition ofo {A} (o : option A) : res A := match o with Some a => Ok a | None => UB end.

(** ** C library on buffers *)

Definition zlen {A} (l : list A) : Z := Z.of_nat (length l).
Definition zeros (n : Z) : list Z := repeat 0 (Z.to_nat n).

Fixpoint upto0 (b : list Z) : option (list Z) :=
  match b with
  | [] => None
  | c :: r => if c =? 0 then Some [] else option_map (cons c) (upto0 r)
  end.
(** The C string starting at offset [off]. *)
Definition cstr (b : list Z) (off : Z) : option (list Z) :=
  if (0 <=? off) && (off <=? zlen b) then upto0 (skipn (Z.to_nat off) b) else None.

Definition c_strlen (b : list Z) (off : Z) : option Z := option_map zlen (cstr b off).

(** Write the bytes [xs] at offset [off]. *)
Definition splice (b : list Z) (off : Z) (xs : list Z) : option (list Z) :=
  if (0 <=? off) && (off + zlen xs <=? zlen b)
  then Some (firstn (Z.to_nat off) b ++ xs ++ skipn (Z.to_nat off + length xs) b)
  else None.

(** Read [n] bytes at offset [off]. *)
Definition readn (b : list Z) (off n : Z) : option (list Z) :=
  if n =? 0 then Some []
  else if (0 <=? off) && (0 <=? n) && (off + n <=? zlen b)
  then Some (firstn (Z.to_nat n) (skipn (Z.to_nat off) b)) else None.

(** At most [n] bytes, stopping before a NUL. *)
Fixpoint takestr (n : nat) (b : list Z) : option (list Z) :=
  match n with
  | O => Some []
  | S n' => match b with
            | [] => None
            | c :: r => if c =? 0 then Some [] else option_map (cons c) (takestr n' r)
            end
  end.

Definition c_strcpy (d : list Z) (doff : Z) (s : list Z) (soff : Z) : option (list Z) :=
  match cstr s soff with Some l => splice d doff (l ++ [0]) | None => None end.
Definition c_strncpy (d : list Z) (doff : Z) (s : list Z) (soff n : Z) : option (list Z) :=
  if n =? 0 then Some d
  else if (0 <=? soff) && (soff <=? zlen s) && (0 <=? n) then
    match takestr (Z.to_nat n) (skipn (Z.to_nat soff) s) with
    | Some l => splice d doff (l ++ zeros (n - zlen l))
    | None => None
    end
  else None.
Definition c_strcat (d : list Z) (doff : Z) (s : list Z) : option (list Z) :=
  match c_strlen d doff with
  | Some k => c_strcpy d (doff + k) s 0
  | None => None
  end.
Definition c_memcpy (d : list Z) (doff : Z) (s : list Z) (soff n : Z) : option (list Z) :=
  if n =? 0 then Some d
  else match readn s soff n with Some l => splice d doff l | None => None end.

(** strcmp and strncmp: only "equal or not" is used by the callers in String.cpp. *)
Definition c_streq (a : list Z) (aoff : Z) (b : list Z) : option bool :=
  match cstr a aoff, cstr b 0 with
  | Some x, Some y => Some (if list_eq_dec Z.eq_dec x y then true else false)
  | _, _ => None
  end.
Definition c_strneq (n : Z) (a b : list Z) : option bool :=
  match takestr (Z.to_nat n) a, takestr (Z.to_nat n) b with
  | Some x, Some y => Some (if list_eq_dec Z.eq_dec x y then true else false)
  | _, _ => None
  end.

(** strchr from an offset, for a non-NUL character: offset of the match. *)
Fixpoint index_of (c : Z) (l : list Z) : option Z :=
  match l with
  | [] => None
  | x :: r => if x =? c then Some 0 else option_map (Z.add 1) (index_of c r)
  end.
Definition c_strchr (b : list Z) (off : Z) (c : Z) : option (option Z) :=
  match cstr b off with
  | Some l => Some (if c =? 0 then Some (off + zlen l) else option_map (Z.add off) (index_of c l))
  | None => None
  end.

Fixpoint is_prefix (p l : list Z) : bool :=
  match p, l with
  | [], _ => true
  | x :: p', y :: l' => (x =? y) && is_prefix p' l'
  | _, [] => false
  end.
Fixpoint index_sub (p l : list Z) : option Z :=
  if is_prefix p l then Some 0
  else match l with
       | [] => None
       | _ :: r => option_map (Z.add 1) (index_sub p r)
       end.
Definition c_strstr (b : list Z) (off : Z) (p : list Z) : option (option Z) :=
  match cstr b off, cstr p 0 with
  | Some l, Some q => Some (option_map (Z.add off) (index_sub q l))
  | _, _ => None
  end.

(** ** The class *)

(** String.h:150-152. [sbuf = None] is the NULL pointer. *)
Record cstring := mks { sbuf : option (list Z); scount : Z; ssize : Z }.

(** String.cpp:94-100 *)
Definition s_new : cstring := mks None 0 0.

(** The raw member [buf] (NULL has no cells) and toConstChar() (String.h:142-144). *)
Definition raw (s : cstring) : list Z := match sbuf s with Some b => b | None => [] end.
Definition cchars (s : cstring) : list Z := match sbuf s with Some b => b | None => [0] end.

(** String.cpp:73-88, called with _length == npos. *)
Definition s_set (b : list Z) : res cstring :=
  do n <- ofo (c_strlen b 0);
  let size := n + 16 in
  do b' <- ofo (c_strcpy (zeros (size + 1)) 0 b 0);
  Ok (mks (Some b') n size).

(** Construction from a literal, String.cpp:102-107. *)
Definition s_lit (l : list Z) : res cstring := s_set (l ++ [0]).

(** Copy constructor and assignment, String.cpp:91-93, 109-114, 132-135. *)
Definition s_copy (s : cstring) : res cstring := s_set (cchars s).

(** String.cpp:60-71. The content beyond [_size] is what realloc + memset give. The double
    [count*1.5] is truncated. *)
Definition inc_slots (s : cstring) (n : Z) : res cstring :=
  if ssize s <=? scount s + n then
    let size := scount s + n + (scount s * 3) / 2 in
    match readn (raw s) 0 (scount s) with
    | Some l => Ok (mks (Some (l ++ zeros (size + 1 - scount s))) (scount s + n) size)
    | None => UB
    end
  else Ok (mks (sbuf s) (scount s + n) (ssize s)).

(** String.cpp:665-669 *)
Definition append_buf (s : cstring) (b : list Z) (len : Z) : res cstring :=
  do s1 <- inc_slots s len;
  do b' <- ofo (c_memcpy (raw s1) (scount s) b 0 len);
  Ok (mks (Some b') (scount s1) (ssize s1)).

(** String.cpp:671-680: a string whose buffer is NULL is refused. The source does not
    alias the destination. *)
Definition s_append (s t : cstring) : res cstring :=
  match sbuf t with
  | None => Thr
  | Some b => do n <- ofo (c_strlen b 0); append_buf s b n
  end.

(** s.append(s), String.cpp:665-680: [_buf] is the old buffer, which inc_slots frees when it
    reallocates. *)
Definition s_append_self (s : cstring) : res cstring :=
  match sbuf s with
  | None => Thr
  | Some b =>
    do n <- ofo (c_strlen b 0);
    if ssize s <=? scount s + n then UB else append_buf s b n
  end.

(** String.cpp:682-687 *)
Definition s_append_char (s : cstring) (c : Z) : res cstring :=
  do s1 <- inc_slots s 1;
  do b1 <- ofo (wr (raw s1) (scount s1) 0);
  do b2 <- ofo (wr b1 (scount s1 - 1) c);
  Ok (mks (Some b2) (scount s1) (ssize s1)).

(** String.cpp:203-236: operator+. *)
Definition s_plus (s t : cstring) : res cstring :=
  do n1 <- (match sbuf s with None => Ok 0 | Some b => ofo (c_strlen b 0) end);
  do n2 <- (match sbuf t with None => Ok 0 | Some b => ofo (c_strlen b 0) end);
  if 0 <? n1 + n2 then
    do b1 <- (if n1 =? 0 then Ok (zeros (n1 + n2 + 1))
              else ofo (c_strcpy (zeros (n1 + n2 + 1)) 0 (raw s) 0));
    do b2 <- (if n2 =? 0 then Ok b1 else ofo (c_strcpy b1 n1 (raw t) 0));
    s_set b2
  else Ok s_new.

(** String.cpp:265-268 *)
Definition s_eq (s t : cstring) : res bool := ofo (c_streq (cchars s) 0 (cchars t)).

(** String.cpp:199-201, 689-697 *)
Definition s_clear (s : cstring) : cstring := s_new.

(** String.cpp:174-197 *)
Definition s_at (s : cstring) (pos : Z) : res Z :=
  if (pos <? 0) || (scount s <=? pos) then Thr else ofo (rd (raw s) pos).
Definition s_put (s : cstring) (pos c : Z) : res cstring :=
  if (pos <? 0) || (scount s <=? pos) then Thr
  else do b <- ofo (wr (raw s) pos c); Ok (mks (Some b) (scount s) (ssize s)).

(** String.cpp:448-473 *)
Definition s_getSubstring (s : cstring) (pos len0 : Z) : res cstring :=
  let len := if len0 =? -1 then scount s - pos else len0 in
  if len <? 0 then Thr
  else if scount s <? pos + len then Thr
  else do cut <- ofo (c_strncpy (zeros (len + 1)) 0 (raw s) pos len); s_set cut.

(** String.cpp:495-522 *)
Definition s_setSubstring (s : cstring) (pos len : Z) (t : cstring) : res cstring :=
  if scount s <=? pos then Thr
  else
    let new_size := scount s + (scount t - len) in
    if new_size <=? 0 then Thr
    else
      do b1 <- (if 0 <? pos then ofo (c_strncpy (zeros (new_size + 1)) 0 (raw s) 0 pos)
                else Ok (zeros (new_size + 1)));
      do b2 <- ofo (c_strcat b1 pos (cchars t));
      do b3 <- ofo (c_strcpy b2 (pos + scount t) (raw s) (pos + len));
      Ok (mks (Some b3) new_size new_size).

(** String.cpp:529-551 *)
Definition s_insert_char (s : cstring) (pos c : Z) : res cstring :=
  if scount s <=? pos then Thr
  else
    let n := scount s + 1 in
    do b1 <- (if 0 <? pos then ofo (c_strncpy (zeros (n + 1)) 0 (raw s) 0 pos)
              else Ok (zeros (n + 1)));
    do b2 <- ofo (wr b1 pos c);
    do b3 <- ofo (c_strcpy b2 (pos + 1) (raw s) pos);
    Ok (mks (Some b3) n n).

(** String.cpp:553-572 *)
Definition s_insert (s : cstring) (pos : Z) (t : cstring) : res cstring :=
  if scount s <=? pos then Thr
  else
    let n := scount s + scount t in
    do b1 <- (if 0 <? pos then ofo (c_strncpy (zeros (n + 1)) 0 (raw s) 0 pos)
              else Ok (zeros (n + 1)));
    do b2 <- ofo (c_strcat b1 pos (cchars t));
    do b3 <- ofo (c_strncpy b2 (pos + scount t) (raw s) pos (scount s - pos));
    Ok (mks (Some b3) n n).

(** String.cpp:574-601 *)
Definition s_erase (s : cstring) (pos len : Z) : res cstring :=
  if scount s <=? pos then Thr
  else if scount s <? pos + len then Thr
  else
    let n := scount s - len in
    do b1 <- (if 0 <? pos then ofo (c_memcpy (zeros (n + 1)) 0 (raw s) 0 pos)
              else Ok (zeros (n + 1)));
    do b2 <- ofo (c_memcpy b1 pos (raw s) (pos + len) (scount s - len - pos));
    Ok (mks (Some b2) n n).

(** ** Searching *)

(** String.cpp:613-617, inner loop: [n] pattern characters left, at index [i]. *)
Fixpoint match_at (n : nat) (p b : list Z) (idx i : Z) : res bool :=
  match n with
  | O => Ok true
  | S n' =>
    do x <- ofo (rd p i);
    do y <- ofo (rd b (idx + i));
    if x =? y then match_at n' p b idx (i + 1) else Ok false
  end.

(** String.cpp:611-626, do-while over idx. *)
Fixpoint find_loop (fuel : nat) (len : Z) (p : list Z) (s : cstring) (idx : Z) : res Z :=
  match fuel with
  | O => Loop
  | S f =>
    do m <- match_at (Z.to_nat len) p (raw s) idx 0;
    if m then Ok idx
    else if idx + 1 <? scount s then find_loop f len p s (idx + 1) else Ok (-1)
  end.

(** String.cpp:603-634. [pos] is only compared with the length. *)
Definition s_find (s p : cstring) (pos : Z) : res Z :=
  do len <- ofo (c_strlen (cchars p) 0);
  if (pos <? scount s) && (len <=? scount s)
  then find_loop (Z.to_nat (scount s)) len (cchars p) s 0
  else Ok (-1).

(** String.cpp:648-652: is [c] one of the characters of the set? *)
Fixpoint in_set (n : nat) (p : list Z) (i c : Z) : res bool :=
  match n with
  | O => Ok false
  | S n' => do x <- ofo (rd p i); if x =? c then Ok true else in_set n' p (i + 1) c
  end.
Fixpoint last_loop (fuel : nat) (len : Z) (p : list Z) (s : cstring) (idx : Z) : res Z :=
  match fuel with
  | O => Loop
  | S f =>
    do c <- ofo (rd (raw s) idx);
    do m <- in_set (Z.to_nat len) p 0 c;
    if m then Ok idx
    else if 0 <=? idx - 1 then last_loop f len p s (idx - 1) else Ok (-1)
  end.
(** String.cpp:636-664 *)
Definition s_findLastOf (s p : cstring) (pos0 : Z) : res Z :=
  do len <- ofo (c_strlen (cchars p) 0);
  let pos := if pos0 =? -1 then scount s - 1 else pos0 in
  if pos <? scount s
  then let idx := Z.min pos (scount s - 1) in
       last_loop (S (Z.to_nat (scount s))) len (cchars p) s idx
  else Ok (-1).

(** String.cpp:364-374. Pointer arithmetic stays inside the buffer because of the test. *)
Definition s_endsWith (s t : cstring) : res bool :=
  if scount t <=? scount s then ofo (c_streq (cchars s) (scount s - scount t) (cchars t))
  else Ok false.
(** String.cpp:376-381 *)
Definition s_startsWith (s t : cstring) : res bool :=
  if scount t <=? scount s then ofo (c_strneq (scount t) (cchars s) (cchars t)) else Ok false.

(** ** Splitting, replacing, converting *)

(** String.cpp:316-321 *)
Fixpoint split_loop (fuel : nat) (s : cstring) (delim last_pos pos : Z) : res (list cstring) :=
  match fuel with
  | O => Loop
  | S f =>
    do r <- ofo (c_strchr (cchars s) pos delim);
    match r with
    | Some p =>
      do tok <- s_getSubstring s last_pos (p - last_pos);
      do rest <- split_loop f s delim (p + 1) (p + 1);
      Ok (tok :: rest)
    | None =>
      do tok <- s_getSubstring s last_pos (scount s - last_pos);
      Ok [tok]
    end
  end.
(** String.cpp:309-328 *)
Definition s_split_char (s : cstring) (delim : Z) : res (list cstring) :=
  split_loop (S (S (Z.to_nat (scount s)))) s delim 0 0.

(** String.cpp:335-342 *)
Fixpoint split_str_loop (fuel : nat) (s d : cstring) : res (list cstring) :=
  match fuel with
  | O => Loop
  | S f =>
    do pos <- s_find s d 0;
    if pos =? -1 then do c <- s_copy s; Ok [c]
    else
      do tok <- s_getSubstring s 0 pos;
      do s' <- s_erase s 0 (pos + scount d);
      do rest <- split_str_loop f s' d;
      Ok (tok :: rest)
  end.
(** String.cpp:330-343 *)
Definition s_split (fuel : nat) (s d : cstring) : res (list cstring) :=
  do s0 <- s_copy s; split_str_loop fuel s0 d.

(** Character.cpp:9-23 *)
Definition lower (c : Z) : Z := if (65 <=? c) && (c <=? 90) then 97 + (c - 65) else c.
Definition upper (c : Z) : Z := if (97 <=? c) && (c <=? 122) then 65 + (c - 97) else c.

(** String.cpp:349, 358: the loop variable is a [short]; its increment wraps
    (implementation defined; two's complement, as gcc). *)
Definition wrap_short (n : Z) : Z := (n + 32768) mod 65536 - 32768.
Fixpoint case_loop (fuel : nat) (f : Z -> Z) (s : cstring) (l : Z) : res cstring :=
  match fuel with
  | O => Loop
  | S k =>
    if l <? scount s then
      do c <- s_at s l;
      do s' <- s_put s l (f c);
      case_loop k f s' (wrap_short (l + 1))
    else Ok s
  end.
(** String.cpp:346-362 *)
Definition s_toLower (s : cstring) : res cstring :=
  do r <- s_copy s; case_loop (S (Z.to_nat (scount s))) lower r 0.
Definition s_toUpper (s : cstring) : res cstring :=
  do r <- s_copy s; case_loop (S (Z.to_nat (scount s))) upper r 0.

(** String.cpp:393-407 *)
Definition s_contains (s t : cstring) (ignore_case : bool) : res bool :=
  do s1 <- s_copy s;
  do s2 <- s_copy t;
  do s1' <- (if ignore_case then s_toLower s1 else Ok s1);
  do s2' <- (if ignore_case then s_toLower s2 else Ok s2);
  do r <- s_find s1' s2' 0;
  Ok (negb (r =? -1)).

(** String.cpp:413-429. [it] runs from 0 to [length]. 92 = backslash, 110 = n, 116 = t,
    34 and 39 = double and single quote. *)
Fixpoint unescape_loop (fuel : nat) (b : list Z) (it fin : Z) (acc : cstring) : res cstring :=
  match fuel with
  | O => Loop
  | S f =>
    if it =? fin then Ok acc
    else
      do c <- ofo (rd b it);
      if (c =? 92) && negb (it + 1 =? fin) then
        do e <- ofo (rd b (it + 1));
        if e =? 92 then do a <- s_append_char acc 92; unescape_loop f b (it + 2) fin a
        else if e =? 110 then do a <- s_append_char acc 10; unescape_loop f b (it + 2) fin a
        else if e =? 116 then do a <- s_append_char acc 9; unescape_loop f b (it + 2) fin a
        else if e =? 34 then do a <- s_append_char acc 34; unescape_loop f b (it + 2) fin a
        else if e =? 39 then do a <- s_append_char acc 39; unescape_loop f b (it + 2) fin a
        else unescape_loop f b (it + 2) fin acc
      else do a <- s_append_char acc c; unescape_loop f b (it + 1) fin a
  end.
(** String.cpp:409-432 *)
Definition s_unescape (s : cstring) : res cstring :=
  unescape_loop (S (Z.to_nat (scount s))) (cchars s) 0 (scount s) s_new.

(** String.cpp:439-443 *)
Fixpoint replace_loop (fuel : nat) (str old new : cstring) (idx : Z) : res cstring :=
  match fuel with
  | O => Loop
  | S f =>
    do r <- ofo (c_strstr (cchars str) idx (cchars old));
    match r with
    | None => Ok str
    | Some p =>
      do str' <- s_setSubstring str p (scount old) new;
      replace_loop f str' old new (p + scount new)
    end
  end.
(** String.cpp:434-446 *)
Definition s_replace (fuel : nat) (s old new : cstring) : res cstring :=
  do str <- s_copy s; replace_loop fuel str old new 0.

(** ** Script level *)

(** Conversion of zs_int (64 bit) to the [int] parameters of String. *)
Definition to_int (n : Z) : Z := (n + 2147483648) mod 4294967296 - 2147483648.

(** StringScriptObjectZs.cpp:151-177 *)
Definition zs_substring (s : cstring) (i j : Z) : res cstring :=
  if i <? 0 then Thr
  else
    let j1 := if j <? 0 then scount s + j else j in
    let j2 := if scount s <=? j1 then scount s - 1 else j1 in
    if i <=? j2 then
      do r <- s_getSubstring s (to_int i) (to_int (j2 - i + 1)); s_copy r
    else do r <- s_lit []; s_copy r.
(** StringScriptObjectZs.cpp:38-42 *)
Definition zs_eraseAt (s : cstring) (i : Z) : res cstring := s_erase s (to_int i) 1.
(** StringScriptObjectZs.cpp:44-54 *)
Definition zs_insertAt (s : cstring) (i : Z) (t : cstring) : res cstring := s_insert s (to_int i) t.
Definition zs_insertAt_char (s : cstring) (i c : Z) : res cstring :=
  s_insert_char s (to_int i) (c mod 256).
(** StringScriptObjectZs.cpp:101-113 *)
Definition zs_indexOf (s p : cstring) : res Z := s_find s p 0.
Definition zs_indexOf_char (s : cstring) (c : Z) : res Z :=
  do e <- s_lit []; do p <- s_append_char e (c mod 256); s_find s p 0.
(** StringScriptObjectZs.cpp:14-24; strchr takes its argument as a char. *)
Definition zs_contains (s t : cstring) : res bool := s_contains s t false.
Definition zs_contains_char (s : cstring) (c : Z) : res bool :=
  do r <- ofo (c_strchr (cchars s) 0 (c mod 256));
  Ok (match r with Some _ => true | None => false end).

(** ** Histories of one string object *)

(** Calls on a string object with literal arguments. *)
Inductive sop :=
| SSet (l : list Z)                 (* operator=(const char * ) *)
| SAppend (l : list Z)              (* append(String), argument built from a literal *)
| SAppendChar (c : Z)
| SPlus (l : list Z)                (* s = s + String(l) *)
| SInsert (pos : Z) (l : list Z)
| SInsertChar (pos c : Z)
| SErase (pos len : Z)
| SSetSub (pos len : Z) (l : list Z)
| SPut (pos c : Z)                  (* s[pos] = c *)
| SClear.

Definition c_op (o : sop) (s : cstring) : res cstring :=
  match o with
  | SSet l => s_lit l
  | SAppend l => do t <- s_lit l; s_append s t
  | SAppendChar c => s_append_char s c
  | SPlus l => do t <- s_lit l; do r <- s_plus s t; s_copy r
  | SInsert p l => do t <- s_lit l; s_insert s p t
  | SInsertChar p c => s_insert_char s p c
  | SErase p n => s_erase s p n
  | SSetSub p n l => do t <- s_lit l; s_setSubstring s p n t
  | SPut p c => s_put s p c
  | SClear => Ok (s_clear s)
  end.

(** A throwing call leaves the object as it was: in each of these functions the throw
    precedes the first write to a member. The list records which calls succeeded. *)
Fixpoint c_run (os : list sop) (s : cstring) : res (cstring * list bool) :=
  match os with
  | [] => Ok (s, [])
  | o :: r =>
    match c_op o s with
    | Ok s' => do x <- c_run r s'; Ok (fst x, true :: snd x)
    | Thr => do x <- c_run r s; Ok (fst x, false :: snd x)
    | UB => UB
    | Loop => Loop
    end
  end.
