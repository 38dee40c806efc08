(** String::format (core/object/StringScriptObject.cpp:86-309) on a string object.

    Pointers into the text are the list of the bytes from there to the NUL, together with their
    distance from the start.  [Thr]: vm_set_error, no result. *)
From Coq Require Import List ZArith Bool.
From Verif Require Import Base StringModel IntegerModel.
Import ListNotations.
Open Scope Z_scope.

(** What an argument is to ScriptEngine::stackElementValueToString (ScriptEngine.cpp:389-439) and
    to lines 229-236: an integer, whose text depends on the format; or anything else, whose text
    (toString of objects included) does not. *)
Inductive farg := FInt (z : Z) | FText (l : list Z).
Definition arg_text (a : farg) (fmt : list Z) : res cstring :=
  match a with
  | FInt z => do f <- s_lit fmt; z_toString z f
  | FText l => s_lit l
  end.

(** strchr: the text before the first [c] and the text behind it. *)
Fixpoint strchr (c : Z) (s : list Z) : option (list Z * list Z) :=
  match s with
  | [] => None
  | x :: r =>
    if x =? c then Some ([], r)
    else match strchr c r with Some (a, b) => Some (x :: a, b) | None => None end
  end.

(** 175, 181-183 and 195-200: a text built by [operator+=(char)]. *)
Fixpoint add_chars (s : cstring) (l : list Z) : res cstring :=
  match l with
  | [] => Ok s
  | c :: r => do s' <- s_append_char s c; add_chars s' r
  end.
Definition of_chars (l : list Z) : res cstring := do e <- s_lit []; add_chars e l.

(** 243-245 *)
Fixpoint add_spaces (n : nat) (s : cstring) : res cstring :=
  match n with
  | O => Ok s
  | S n' => do s' <- s_append_char s 32; add_spaces n' s'
  end.

(** 150-172: the text between the braces cut into index, alignment and format; nothing when the
    first colon stands before the first comma.  A comma or colon behind the closing brace is
    not looked at (150-151). *)
Definition cut (c : list Z) : option (list Z * option (list Z) * option (list Z)) :=
  match strchr 44 c, strchr 58 c with
  | None, None => Some (c, None, None)
  | Some (a, al), None => Some (a, Some al, None)
  | None, Some (a, f) => Some (a, None, Some f)
  | Some (a, b), Some (a', f) =>
    if (length a <? length a')%nat
    then Some (a, match strchr 58 b with Some (al, _) => Some al | None => None end, Some f)
    else None
  end.

(** The room for the index in the buffer str_error (97, 272): 62 other characters and the NUL. *)
Definition ERRBUF : Z := 450.

(** 174-278: one pair of braces with [c] between them; [start]: position of the opening one. *)
Definition placeholder (input : cstring) (start : Z) (c : list Z) (args : list farg) (acc : cstring) : res cstring :=
  match cut c with
  | None => Ok acc
  | Some (idx, al, fm) =>
    do n <- of_chars idx;
    do r <- z_parse n;
    match r with
    | None => if ERRBUF <=? zlen idx then UB else Thr
    | Some v =>
      let i := to_int v in
      do pad <- match al with
                | None => Ok 0
                | Some w => do m <- of_chars w; do q <- z_parse m; Ok (match q with Some p => to_int p | None => 0 end)
                end;
      if (0 <=? i) && (i <? Z.of_nat (length args)) then
        match nth_error args (Z.to_nat i) with
        | Some a =>
          do t <- arg_text a (match fm with Some f => f | None => [] end);
          do acc1 <- (if 0 <? pad then add_spaces (Z.to_nat (pad - scount t)) acc else Ok acc);
          s_append acc1 t
        | None => UB
        end
      else do t <- s_getSubstring input start (zlen c + 2); s_append acc t
    end
  end.

(** 132-287 *)
Fixpoint fmt_loop (fuel : nat) (input : cstring) (pos : Z) (rest : list Z) (args : list farg) (acc : cstring) : res cstring :=
  match fuel with
  | O => Loop
  | S f =>
    let finish := do t <- s_getSubstring input pos (scount input - pos); s_append acc t in
    match strchr 123 rest with
    | None => finish
    | Some (a, b) =>
      match strchr 125 b with
      | None => finish
      | Some (c, d) =>
        do t <- s_getSubstring input pos (zlen a);
        do acc1 <- s_append acc t;
        do acc2 <- placeholder input (pos + zlen a) c args acc1;
        fmt_loop f input (pos + zlen a + zlen c + 2) d args acc2
      end
    end
  end.

(** 86-309; [None]: called without arguments.  The text is unescaped at 110 and again in
    StringScriptObject::set (326-328). *)
Definition zs_format (s : cstring) (args : option (list farg)) : res cstring :=
  do input <- s_unescape s;
  do out <- match args with
            | None => s_copy input
            | Some l =>
              do t <- ofo (cstr (cchars input) 0);
              fmt_loop (S (length t)) input 0 t l s_new
            end;
  s_unescape out.
