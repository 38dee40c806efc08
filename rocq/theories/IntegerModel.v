(** Model of /repo/src/base/Integer.cpp (text to integer and back) and of parseInt on
    strings (/repo/src/core/type/ScriptTypesFactory.cpp:179-188). zs_int has 64 bits.

    Pointer walks over a NUL-terminated text are walks over the list of its characters;
    reading past the last character gives NUL (0). *)
From Coq Require Import List ZArith Bool Lia.
From Verif Require Import Base StringModel.
Import ListNotations.
Open Scope Z_scope.

(** Character.cpp:25-31 *)
Definition is_digit (c : Z) : bool := (48 <=? c) && (c <=? 57).
Definition is_hexa (c : Z) : bool := is_digit c || ((97 <=? lower c) && (lower c <=? 102)).

(** [while(p( *str)) str++] *)
Fixpoint skip (p : Z -> bool) (l : list Z) : list Z :=
  match l with [] => [] | c :: r => if p c then skip p r else l end.
Definition head0 (l : list Z) : Z := match l with [] => 0 | c :: _ => c end.

(** Integer.h:12-17 *)
Inductive itype := IInvalid | IHexa | IBinary | IInt.

(** Integer.cpp:103-110: the loop condition of the binary check. *)
Definition bin_char (c : Z) : bool := is_digit c && ((c =? 48) || (c =? 49)).

(** Integer.cpp:96-156, after the emptiness test. A leading '-' is skipped at 122 but the
    pointer is reset at 146. *)
Definition classify (l : list Z) : itype :=
  if lower (head0 (skip bin_char l)) =? 98 then IBinary
  else if (head0 l =? 48) && (lower (head0 (tl l)) =? 120) then
    let r := skipn 2 l in
    let e := skip is_hexa r in
    if (length e =? length r)%nat then IInvalid
    else if (head0 e =? 32) || (head0 e =? 0) then IHexa else IInvalid
  else
    let e := skip is_digit l in
    if (head0 e =? 32) || (head0 e =? 0) then IInt else IInvalid.
Definition is_integer (s : cstring) : res itype :=
  if scount s =? 0 then Ok IInvalid
  else do l <- ofo (cstr (cchars s) 0); Ok (classify l).

(** strtoll of the C library: leading white space, an optional sign, for base 16 an optional
    0x followed by a digit, then digits; saturates at the ends of the 64-bit range. The C23
    "0b" prefix for base 2 is not recognised. *)
Definition LLMAX : Z := 9223372036854775807.
Definition LLMIN : Z := -9223372036854775808.
Definition is_space (c : Z) : bool := (c =? 32) || ((9 <=? c) && (c <=? 13)).
Definition digit_val (c : Z) : Z :=
  if is_digit c then c - 48
  else if (97 <=? lower c) && (lower c <=? 122) then lower c - 87 else 99.
Fixpoint digits_val (base acc : Z) (l : list Z) : Z :=
  match l with
  | [] => acc
  | c :: r => if digit_val c <? base then digits_val base (acc * base + digit_val c) r else acc
  end.
Definition strtoll (base : Z) (l : list Z) : Z :=
  let l1 := skip is_space l in
  let neg := head0 l1 =? 45 in
  let l2 := if neg || (head0 l1 =? 43) then tl l1 else l1 in
  let l3 := if (base =? 16) && (head0 l2 =? 48) && (lower (head0 (tl l2)) =? 120)
               && (digit_val (head0 (tl (tl l2))) <? 16)
            then tl (tl l2) else l2 in
  let v := digits_val base 0 l3 in
  Z.max LLMIN (Z.min LLMAX (if neg then - v else v)).

(** Integer.cpp:11-32; NULL is [None]. *)
Definition z_parse (s : cstring) : res (option Z) :=
  do t <- is_integer s;
  match t with
  | IInvalid => Ok None
  | IInt => do l <- ofo (cstr (cchars s) 0); Ok (Some (strtoll 10 l))
  | IHexa => do l <- ofo (cstr (cchars s) 0); Ok (Some (strtoll 16 l))
  | IBinary =>
    do b <- s_getSubstring s 0 (scount s - 1);
    do l <- ofo (cstr (cchars b) 0); Ok (Some (strtoll 2 l))
  end.
(** ScriptTypesFactory.cpp:179-188 *)
Definition zs_parseInt (s : cstring) : res Z :=
  do r <- z_parse s; Ok (match r with Some v => v | None => 0 end).

(** *** toString *)

(** Rounding of a positive integer to the 53-bit significand of a double, ties to even. *)
Definition rnd53 (m : Z) : Z :=
  let k := Z.log2 m - 52 in
  if k <=? 0 then m
  else
    let q := m / 2 ^ k in
    let r := m mod 2 ^ k in
    let half := 2 ^ (k - 1) in
    (if r <? half then q
     else if half <? r then q + 1
     else if Z.even q then q else q + 1) * 2 ^ k.
(** The double nearest to 0.1 is 7205759403792794 / 2^56. *)
Definition tenth : Z := 7205759403792794.
(** Integer.cpp:49: [_number *= 0.1] for a positive number: the number is converted to
    double, multiplied in double arithmetic and truncated. *)
Definition mul_tenth (n : Z) : Z := rnd53 (rnd53 n * tenth) / 2 ^ 56.

(** Integer.cpp:47-50 *)
Fixpoint digit_loop (fuel : nat) (n : Z) (acc : cstring) : res cstring :=
  match fuel with
  | O => Loop
  | S f =>
    if n =? 0 then Ok acc
    else do a <- s_append_char acc (n mod 10 + 48); digit_loop f (mul_tenth n) a
  end.

(** Integer.cpp:55-60: [n] swaps left, at index [i]. *)
Fixpoint swap_loop (n : nat) (len i : Z) (s : cstring) : res cstring :=
  match n with
  | O => Ok s
  | S n' =>
    do x <- s_at s (len - i - 1);
    do y <- s_at s i;
    do s1 <- s_put s (len - i - 1) y;
    do s2 <- s_put s1 i x;
    swap_loop n' len (i + 1) s2
  end.

(** Integer.cpp:77-79 *)
Fixpoint pad_loop (n : nat) (s : cstring) : res cstring :=
  match n with
  | O => Ok s
  | S n' => do z <- s_lit [48]; do r <- s_plus z s; do r' <- s_copy r; pad_loop n' r'
  end.

(** Integer.cpp:34-93. [2^63] has no 64-bit negation: signed overflow. 100 = 'd'. *)
Definition z_toString (number : Z) (format : cstring) : res cstring :=
  do zero <- s_lit [48];
  do fmt <- s_toLower format;
  if number =? LLMIN then UB
  else
    let n := Z.abs number in
    do r1 <- (if n =? 0 then Ok zero else do e <- s_lit []; digit_loop 64 n e);
    do r2 <- swap_loop (Z.to_nat (scount r1 / 2)) (scount r1) 0 r1;
    do f <- ofo (cstr (cchars fmt) 0);
    do r3 <- (if scount fmt =? 0 then Ok r2
              else if head0 f =? 100 then
                do rest <- s_lit (tl f);
                do p <- z_parse rest;
                match p with
                | Some k => pad_loop (Z.to_nat (to_int (k - scount r2))) r2
                | None => Ok r2
                end
              else Ok r2);
    if number <? 0 then do m <- s_lit [45]; s_plus m r3 else Ok r3.
