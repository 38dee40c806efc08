(** * Pieces of the source that are copied through a buffer, and the directive import.

    Modelled source: compiler_copy_const_char_diff (src/compiler/compiler.cpp:37-58) and its
    callers: string literals (src/compiler/compiler_symbol.cpp:81-97), the conditions of while and
    do-while (src/compiler/compiler_keyword_loop.cpp:118-148, 250-268); is_directive
    (src/compiler/compiler_data.cpp:534-549, 921) and the name of an import
    (src/compiler/compiler.cpp:342-370).  [LexModel] and [LitModel] leave out the buffer: what
    they read is copied here.  The text is as in [LexModel]: bytes that are not zero. *)
From Coq Require Import List ZArith Bool String.
From Verif Require Import Base StringModel LexModel ParseModel LitModel.
Import ListNotations.
Local Open Scope Z_scope.

(** ZS_MAX_STR_BUFFER (src/base/Common.h:44). *)
Definition max_buffer : Z := 4096.
(** compiler_copy_const_char_diff (compiler.cpp:37-58) of the characters between the two
    pointers.  strncpy of as many characters as the buffer has leaves no room for the zero, and
    the String made from it reads behind the buffer: [UB]. *)
Definition copy (t : list Z) : res (list Z) :=
  let n := Z.of_nat (List.length t) in
  if max_buffer + 1 <=? n then Thr
  else match t with [] => Thr | _ => if n =? max_buffer then UB else Ok t end.

(** A string literal with its value (compiler_symbol.cpp:81-97). *)
Definition string_value (s : ptr) : res (list Z * ptr) :=
  do r <- string_literal s;
  do v <- match fst r with [] => Ok [] | t => copy t end;
  Ok (v, snd r).

(** is_directive (compiler_data.cpp:534-549): the first six characters. *)
Definition is_import (s : ptr) : bool := list_eqb (firstn 6 s) (bytes "import").
(** The directive at the start of a statement (compiler.cpp:342-370): the name and the rest;
    [None]: the statement is none.  The characters of the name are found by the same loop as
    those of a string (357). *)
Definition import_name (s : ptr) : res (option (list Z * ptr)) :=
  if is_import s then
    do b <- blanks (adv 6 s);
    do r <- string_literal b;
    do n <- copy (fst r);
    Ok (Some (n, snd r))
  else Ok None.

Section Cond.
Variable other : okind -> ptr -> res (Z * ptr).
Variable kind : literal -> option bool.
Variable known is_type : list Z -> bool.
Variable makes : pexpr -> bool.
(** The condition of while and do-while (compiler_keyword_loop.cpp:120-148, 256-268): its text is
    copied. *)
Definition while_condition (s : ptr) : res (popt * ptr) :=
  do r <- condition other kind known is_type makes s;
  do _ <- copy (firstn (List.length (adv 1 s) - List.length (snd r)) (adv 1 s));
  Ok r.
End Cond.
