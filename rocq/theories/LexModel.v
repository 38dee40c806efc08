(** * The lexical level of the compiler.

    Modelled source: src/compiler/compiler_data.cpp:299-935 (blanks, comments,
    operators, keywords, identifiers, numbers) and the token scanning of
    src/compiler/compiler_symbol.cpp:76-105 (strings, words).

    A [const char *] into the zero-terminated source text is the list of the
    characters from there to the terminator (excluded): [*s] of the empty list is
    the terminator, anything beyond it is outside of the text, and reading it is
    [UB].  Characters are bytes 0..255; they are only compared for equality and
    with ASCII ranges.  The line counter does not overflow. *)
From Coq Require Import List ZArith Bool Lia String Ascii.
From Verif Require Import Base StringModel.
Import ListNotations.
Local Open Scope Z_scope.

Definition bytes (s : string) : list Z :=
  map (fun a => Z.of_N (N_of_ascii a)) (list_ascii_of_string s).
Definition ptr := list Z.

(** [*(s+n)]. *)
Definition peek (n : nat) (s : ptr) : res Z :=
  if (n <=? List.length s)%nat then Ok (nth n s 0) else UB.
(** [s+n]; only meaningful up to one past the terminator. *)
Definition adv (n : nat) (s : ptr) : ptr := skipn n s.

(** A conjunction of tests of single characters, evaluated from left to right
    with short circuit: [(n, true, c)] is [*(s+n)==c], [(n, false, c)] is
    [*(s+n)!=c]. *)
Fixpoint all_of (l : list (nat * bool * Z)) (s : ptr) : res bool :=
  match l with
  | [] => Ok true
  | (n, pos, c) :: l' =>
      do x <- peek n s;
      if Bool.eqb (x =? c) pos then all_of l' s else Ok false
  end.

Definition is (n : nat) (c : Z) := (n, true, c).
Definition isnt (n : nat) (c : Z) := (n, false, c).

(** ** Blanks and comments *)

(** is_comment_single_line, is_comment_block_start, is_comment_block_end
    (compiler_data.cpp:346-348). *)
Definition is_comment_single_line : ptr -> res bool := all_of [is 0 47; is 1 47].
Definition is_comment_block_start : ptr -> res bool := all_of [is 0 47; is 1 42].
Definition is_comment_block_end : ptr -> res bool := all_of [is 0 42; is 1 47].

(** The loop of advance_to_end_block_comment (compiler_data.cpp:380-391). *)
Fixpoint to_block_end (s : ptr) (line : Z) : ptr * Z :=
  match s with
  | [] => (s, line)
  | c :: s' =>
      match is_comment_block_end s with
      | Ok true => (s, line)
      | _ => to_block_end s' (if c =? 10 then line + 1 else line)
      end
  end.
(** advance_to_end_block_comment (compiler_data.cpp:375-394), called at a block
    start only. *)
Definition advance_to_end_block_comment (s : ptr) (line : Z) : ptr * Z := to_block_end (adv 2 s) line.

Fixpoint skip_spaces (s : ptr) : ptr :=
  match s with c :: s' => if (c =? 32) || (c =? 9) then skip_spaces s' else s | [] => s end.
Fixpoint skip_line (s : ptr) : ptr :=
  match s with c :: s' => if c =? 10 then s else skip_line s' | [] => s end.
Definition hd0 (s : ptr) : Z := hd 0 s.

(** The loop of compiler_ignore_blanks (compiler_data.cpp:396-434); a NULL
    result with the error set is [Thr].  [fuel] bounds the iterations. *)
Fixpoint blanks_loop (fuel : nat) (s : ptr) (line : Z) : res (ptr * Z) :=
  match fuel with
  | O => Loop
  | S f =>
      let s1 := skip_spaces s in
      do sl <- is_comment_single_line s1;
      do r <- (if sl then Ok (skip_line s1, line, true)
               else
                 do bs <- is_comment_block_start s1;
                 if bs then
                   let r := advance_to_end_block_comment s1 line in
                   do be <- is_comment_block_end (fst r);
                   Ok (if be then adv 2 (fst r) else fst r, snd r, false)
                 else
                   do be <- is_comment_block_end s1;
                   if be then Thr else Ok (s1, line, true));
      let '(s2, l2, fin) := r in
      let s3 := if hd0 s2 =? 13 then adv 1 s2 else s2 in
      if hd0 s3 =? 10 then blanks_loop f (adv 1 s3) (l2 + 1)
      else if (fin : bool) then Ok (s3, l2) else blanks_loop f s3 l2
  end.
Definition ignore_blanks (s : ptr) (line : Z) : res (ptr * Z) :=
  blanks_loop (S (List.length s)) s line.

(** ** Operators *)

(** Operator, in the order of the enumeration (compiler_operator.h:73-118). *)
Inductive operator :=
| OpAssign | OpAssignAdd | OpAssignSub | OpAssignMul | OpAssignDiv | OpAssignMod
| OpAssignXor | OpAssignAnd | OpAssignOr | OpAssignShl | OpAssignShr
| OpTernaryIf | OpTernaryElse | OpLogicAnd | OpLogicOr
| OpEqual | OpNotEqual | OpGte | OpLte | OpGt | OpLt
| OpAdd | OpSub | OpXor | OpMul | OpAnd | OpDiv | OpMod | OpOr | OpShl | OpShr
| OpInstanceof | OpIn.

(** strncmp(word, s, strlen(word)) == 0: reads no further than the first
    difference, so never beyond the terminator. *)
Definition starts (w : list Z) (s : ptr) : bool := is_prefix w s.

(** is_operator_typeof/instanceof/in (compiler_data.cpp:350-372): the word, then
    a space, a carriage return or a new line. *)
Definition word_op (w : list Z) (s : ptr) : res bool :=
  if starts w s then
    do c <- peek (List.length w) s;
    Ok ((c =? 32) || (c =? 13) || (c =? 10))
  else Ok false.

(** compiler_data_operators: spelling and test of each operator
    (compiler_data.cpp:309-339, 830-864). *)
Definition spelling (o : operator) : list Z :=
  bytes match o with
  | OpAssign => "=" | OpAssignAdd => "+=" | OpAssignSub => "-=" | OpAssignMul => "*="
  | OpAssignDiv => "/=" | OpAssignMod => "%=" | OpAssignXor => "^=" | OpAssignAnd => "&="
  | OpAssignOr => "|=" | OpAssignShl => "<<=" | OpAssignShr => ">>="
  | OpTernaryIf => "?" | OpTernaryElse => ":" | OpLogicAnd => "&&" | OpLogicOr => "||"
  | OpEqual => "==" | OpNotEqual => "!=" | OpGte => ">=" | OpLte => "<=" | OpGt => ">" | OpLt => "<"
  | OpAdd => "+" | OpSub => "-" | OpXor => "^" | OpMul => "*" | OpAnd => "&" | OpDiv => "/"
  | OpMod => "%" | OpOr => "|" | OpShl => "<<" | OpShr => ">>"
  | OpInstanceof => "instanceof" | OpIn => "in"
  end%string.

Definition op_test (o : operator) : ptr -> res bool :=
  match o with
  | OpTernaryIf => all_of [is 0 63]
  | OpTernaryElse => all_of [is 0 58]
  | OpAdd => all_of [is 0 43; isnt 1 43]
  | OpSub => all_of [is 0 45; isnt 1 45]
  | OpMul => all_of [is 0 42; isnt 1 61]
  | OpDiv => all_of [is 0 47; isnt 1 61]
  | OpMod => all_of [is 0 37; isnt 1 61]
  | OpAssign => all_of [is 0 61; isnt 1 61]
  | OpAssignAdd => all_of [is 0 43; is 1 61]
  | OpAssignSub => all_of [is 0 45; is 1 61]
  | OpAssignMul => all_of [is 0 42; is 1 61]
  | OpAssignDiv => all_of [is 0 47; is 1 61]
  | OpAssignMod => all_of [is 0 37; is 1 61]
  | OpAssignXor => all_of [is 0 94; is 1 61]
  | OpAssignAnd => all_of [is 0 38; is 1 61]
  | OpAssignOr => all_of [is 0 124; is 1 61]
  | OpAssignShl => all_of [is 0 60; is 1 60; is 2 61]
  | OpAssignShr => all_of [is 0 62; is 1 62; is 2 61]
  | OpXor => all_of [is 0 94; isnt 1 61]
  | OpAnd => all_of [is 0 38; isnt 1 38; isnt 1 61]
  | OpOr => all_of [is 0 124; isnt 1 124; isnt 1 61]
  | OpShl => all_of [is 0 60; is 1 60; isnt 2 61]
  | OpShr => all_of [is 0 62; is 1 62; isnt 2 61]
  | OpLogicAnd => all_of [is 0 38; is 1 38]
  | OpLogicOr => all_of [is 0 124; is 1 124]
  | OpEqual => all_of [is 0 61; is 1 61]
  | OpNotEqual => all_of [is 0 33; is 1 61]
  | OpGt => all_of [is 0 62; isnt 1 62]
  | OpLt => all_of [is 0 60; isnt 1 60]
  | OpGte => all_of [is 0 62; is 1 61]
  | OpLte => all_of [is 0 60; is 1 61]
  | OpInstanceof => word_op (bytes "instanceof")
  | OpIn => word_op (bytes "in")
  end.

Definition operators : list operator :=
  [OpAssign; OpAssignAdd; OpAssignSub; OpAssignMul; OpAssignDiv; OpAssignMod;
   OpAssignXor; OpAssignAnd; OpAssignOr; OpAssignShl; OpAssignShr;
   OpTernaryIf; OpTernaryElse; OpLogicAnd; OpLogicOr;
   OpEqual; OpNotEqual; OpGte; OpLte; OpGt; OpLt;
   OpAdd; OpSub; OpXor; OpMul; OpAnd; OpDiv; OpMod; OpOr; OpShl; OpShr;
   OpInstanceof; OpIn].

(** The first entry of a table whose test holds. *)
Fixpoint first_of {A} (l : list (A * (ptr -> res bool))) (s : ptr) : res (option A) :=
  match l with
  | [] => Ok None
  | (a, f) :: l' => do b <- f s; if b then Ok (Some a) else first_of l' s
  end.

(** is_operator (compiler_data.cpp:444-451). *)
Definition is_operator (s : ptr) : res (option operator) :=
  first_of (map (fun o => (o, op_test o)) operators) s.

(** is_pre_operation (compiler_data.cpp:477-484) with its table (867-874), in the
    order of the enumeration (142-155). *)
Inductive preop := PreDec | PreInc | PreInvalid | PreNot | PreTypeof | PrePos | PreNeg | PreBwc.
Definition is_dec : ptr -> res bool := all_of [is 0 45; is 1 45].
Definition is_inc : ptr -> res bool := all_of [is 0 43; is 1 43].
Definition is_dec_inc_invalid (s : ptr) : res bool :=
  do a <- all_of [is 0 45; is 1 43] s;
  if a then Ok true else all_of [is 0 43; is 1 45] s.
Definition is_pre_operation : ptr -> res (option preop) :=
  first_of [(PreDec, is_dec); (PreInc, is_inc); (PreInvalid, is_dec_inc_invalid);
            (PreNot, all_of [is 0 33; isnt 1 61]); (PreTypeof, word_op (bytes "typeof"));
            (PrePos, op_test OpAdd); (PreNeg, op_test OpSub); (PreBwc, all_of [is 0 126])].

(** is_post_operation (compiler_data.cpp:486-493, 877-879). *)
Inductive postop := PostDec | PostInc | PostInvalid.
Definition is_post_operation : ptr -> res (option postop) :=
  first_of [(PostDec, is_dec); (PostInc, is_inc); (PostInvalid, is_dec_inc_invalid)].

(** is_separator (compiler_data.cpp:435-442, 883-888): , ; ( ) [ ] *)
Definition is_separator (s : ptr) : res bool :=
  do c <- peek 0 s; Ok (existsb (Z.eqb c) [44; 59; 40; 41; 91; 93]).

(** is_special_char (compiler_data.cpp:496-511). *)
Definition is_special_char (s : ptr) : res bool :=
  do c <- peek 0 s; Ok (existsb (Z.eqb c) [0; 32; 9; 46; 40; 41; 123; 125; 91; 93; 10; 13; 58; 59]).

(** is_end_symbol_token (compiler_data.cpp:561-570). *)
Definition is_end_symbol_token (s : ptr) (pre : Z) : res bool :=
  do o <- is_operator s;
  if match o with Some OpInstanceof | Some OpIn | None => false | Some _ => true end then Ok true
  else
    do q <- is_post_operation s;
    if match q with Some _ => true | None => false end then Ok true
    else
      do sep <- is_separator s;
      if sep then Ok true
      else
        do sp <- is_special_char s;
        if sp then Ok true
        else
          do c <- peek 0 s;
          Ok ((c =? 34) && negb (pre =? 92)).

(** ** Keywords *)

(** Keyword, in the order of the enumeration (compiler_data.cpp:82-109; spellings 893-918). *)
Inductive keyword :=
| KwIf | KwElse | KwFor | KwWhile | KwDo | KwVar | KwConst | KwStatic
| KwSwitch | KwCase | KwDefault | KwBreak | KwContinue | KwReturn | KwFunction | KwClass
| KwDelete | KwRef | KwVarArgs | KwThis | KwNew.
Definition kw_spelling (k : keyword) : list Z :=
  bytes match k with
  | KwVar => "var" | KwConst => "const" | KwStatic => "static" | KwIf => "if" | KwElse => "else"
  | KwFor => "for" | KwWhile => "while" | KwDo => "do" | KwSwitch => "switch" | KwCase => "case"
  | KwDefault => "default" | KwBreak => "break" | KwContinue => "continue"
  | KwFunction => "function" | KwReturn => "return" | KwClass => "class" | KwDelete => "delete"
  | KwRef => "ref" | KwVarArgs => "..." | KwThis => "this" | KwNew => "new"
  end%string.
Definition keywords : list keyword :=
  [KwIf; KwElse; KwFor; KwWhile; KwDo; KwVar; KwConst; KwStatic; KwSwitch; KwCase;
   KwDefault; KwBreak; KwContinue; KwReturn; KwFunction; KwClass; KwDelete; KwRef; KwVarArgs; KwThis;
   KwNew].

(** The test of one keyword in compiler_is_keyword (compiler_data.cpp:518-529). *)
Definition kw_test (k : keyword) (s : ptr) : res bool :=
  if starts (kw_spelling k) s then
    let aux := adv (List.length (kw_spelling k)) s in
    do sp <- is_special_char aux;
    if sp then Ok true else is_comment_block_start aux
  else Ok false.
(** compiler_is_keyword (compiler_data.cpp:513-533). *)
Definition is_keyword (s : ptr) : res (option keyword) :=
  first_of (map (fun k => (k, kw_test k)) keywords) s.

(** ** Identifiers *)

Definition in_range (a b c : Z) : bool := (a <=? c) && (c <=? b).
Definition is_alpha_ (c : Z) : bool := in_range 97 122 c || in_range 65 90 c || (c =? 95).
Definition is_digit (c : Z) : bool := in_range 48 57 c.
Definition is_alnum_ (c : Z) : bool := is_alpha_ c || is_digit c.

Fixpoint span (f : Z -> bool) (s : ptr) : list Z * ptr :=
  match s with
  | c :: s' => if f c then let '(a, b) := span f s' in (c :: a, b) else ([], s)
  | [] => ([], [])
  end.

(** get_name_identifier_token (compiler_data.cpp:775-803). *)
Definition get_name_identifier_token (s : ptr) : res (list Z * ptr) :=
  do c <- peek 0 s;
  if is_alpha_ c then Ok (span is_alnum_ s) else Thr.

(** check_identifier_name_expression_ok (compiler_data.cpp:588-630): [Thr] is an
    error report, [Ok b] the result TRUE or FALSE.  The loop over the remaining
    characters (620-626) has no effect. *)
Definition check_identifier_name (sym : list Z) : res bool :=
  do k <- is_keyword sym;
  match k with
  | Some _ => Thr
  | None =>
      do o <- is_operator sym;
      match o with
      | Some _ => Thr
      | None =>
          if existsb (fun w => if list_eq_dec Z.eq_dec sym w then true else false)
               [bytes "true"; bytes "false"; bytes "null"] then Thr
          else do c <- peek 0 sym; Ok (is_alpha_ c)
      end
  end.

(** ** Numbers *)

Definition is_hex_letter (c : Z) : bool := in_range 97 102 c || in_range 65 70 c.

(** The local variables of parse_literal_number (compiler_data.cpp:632-773):
    current_part, the three parts, is01s, is_float. *)
Record num := mknum { part : Z; n0 : list Z; n1 : list Z; n2 : list Z; is01s : bool; is_float : bool }.
Definition cur (n : num) : list Z := if part n =? 0 then n0 n else if part n =? 1 then n1 n else n2 n.
(** number_part[current_part] += c *)
Definition put (n : num) (c : Z) : num :=
  if part n =? 0 then mknum 0 (n0 n ++ [c]) (n1 n) (n2 n) (is01s n) (is_float n)
  else if part n =? 1 then mknum 1 (n0 n) (n1 n ++ [c]) (n2 n) (is01s n) (is_float n)
  else mknum (part n) (n0 n) (n1 n) (n2 n ++ [c]) (is01s n) (is_float n).
Definition set_part (n : num) (p : Z) : num := mknum p (n0 n) (n1 n) (n2 n) (is01s n) (is_float n).
Definition set_float (n : num) : num := mknum (part n) (n0 n) (n1 n) (n2 n) (is01s n) true.
(** is01s &= c is '0' or '1' *)
Definition and01 (n : num) (c : Z) : num :=
  mknum (part n) (n0 n) (n1 n) (n2 n) (is01s n && ((c =? 48) || (c =? 49))) (is_float n).

(** The exponent part at the start of the loop's body (compiler_data.cpp:714-726). *)
Definition exponent (n : num) (s : ptr) : res (num * ptr) :=
  do c <- peek 0 s;
  if is_float n && ((c =? 101) || (c =? 69)) then
    if (part n =? 1) && (1 <? zlen (cur n)) then
      let n1 := put (set_part n 2) c in
      let s1 := adv 1 s in
      do c1 <- peek 0 s1;
      if (c1 =? 43) || (c1 =? 45) then Ok (put n1 c1, adv 1 s1) else Ok (n1, s1)
    else Thr
  else Ok (n, s).

(** The rest of the loop's body (compiler_data.cpp:728-758): the new state and [end]. *)
Definition digit (hexa : bool) (n : num) (c : Z) : res (num * bool) :=
  if is_digit c then Ok (and01 (put n c) c, false)
  else if is_hex_letter c && hexa then Ok (and01 (put n c) c, false)
  else if c =? 46 then
    if negb hexa && (part n =? 0) then Ok (and01 (set_float (put (set_part n 1) 46)) c, false) else Thr
  else if c =? 98 then
    if negb (is01s n) || negb (part n =? 0) then Thr else Ok (and01 (put n c) c, true)
  else Thr.

(** The do-while loop (compiler_data.cpp:712-762). *)
Fixpoint num_loop (fuel : nat) (hexa : bool) (n : num) (s : ptr) : res (num * ptr) :=
  match fuel with
  | O => Loop
  | S f =>
      do e <- exponent n s;
      let '(n1, s1) := e in
      do c <- peek 0 s1;
      do d <- digit hexa n1 c;
      let '(n2, fin) := d in
      let s2 := adv 1 s1 in
      if (fin : bool) then Ok (n2, s2)
      else
        do e1 <- is_end_symbol_token s2 0;
        do stop <- (if e1 then Ok true else is_special_char s2);
        do c2 <- peek 0 s2;
        if stop && negb (c2 =? 46) then Ok (n2, s2) else num_loop f hexa n2 s2
  end.

(** A character literal (compiler_data.cpp:651-698), [s] after the quote: its
    code and the rest. *)
Definition char_literal (s : ptr) : res (Z * ptr) :=
  do c <- peek 0 s;
  do r <- (if c =? 92 then
             let s1 := adv 1 s in
             do e <- peek 0 s1;
             if e =? 110 then Ok (10, s1)
             else if e =? 114 then Ok (13, s1)
             else if e =? 116 then Ok (9, s1)
             else Thr
           else if c =? 39 then Thr       (* empty character constant *)
           else if c =? 0 then Thr        (* unterminated *)
           else Ok (if 128 <=? c then c - 256 else c, s));
  let '(v, s1) := r in
  let s2 := adv 1 s1 in
  do q <- peek 0 s2;
  if q =? 39 then Ok (v, adv 1 s2) else Thr.

(** What parse_literal_number finds: the value of a character, or the text of a
    number. *)
Inductive literal := LChar (v : Z) | LText (v : list Z).

(** parse_literal_number (compiler_data.cpp:632-773); [Ok None] is NULL without an
    error.  IGNORE_BLANKS does nothing here, the callers have skipped blanks. *)
Definition parse_literal_number (s : ptr) : res (option (literal * ptr)) :=
  do kw <- is_keyword s;
  match kw with
  | Some _ => Ok None
  | None =>
      do c <- peek 0 s;
      if c =? 39 then do r <- char_literal (adv 1 s); Ok (Some (LChar (fst r), snd r))
      else
        do hx <- (if c =? 48 then do c1 <- peek 1 s; Ok ((c1 =? 88) || (c1 =? 120)) else Ok false);
        let n := mknum 0 (if hx then firstn 2 s else []) [] [] true false in
        let s1 := if hx then adv 2 s else s in
        do c2 <- peek 0 s1;
        if is_digit c2 || hx || (c2 =? 46) then
          do r <- num_loop (S (List.length s)) hx n s1;
          let '(n', s2) := r in
          do e <- is_end_symbol_token s2 0;
          Ok (if e then Some (LText (n0 n' ++ n1 n' ++ n2 n'), s2) else None)
        else Ok None
  end.

(** ** Strings and words *)

(** The loop of a string literal (compiler_symbol.cpp:81-94), after the opening
    quote; [pre] is [*(aux-1)].  The text between the quotes, and the rest after
    the closing one. *)
Fixpoint string_loop (pre : Z) (s : ptr) : res (list Z * ptr) :=
  match s with
  | [] => Thr
  | c :: s' =>
      if (c =? 34) && negb (pre =? 92) then Ok ([], s')
      else if c =? 10 then Thr
      else do r <- string_loop c s'; Ok (c :: fst r, snd r)
  end.
Definition string_literal (s : ptr) : res (list Z * ptr) :=
  do c <- peek 0 s;
  if c =? 34 then string_loop 34 (adv 1 s) else Thr.

(** The loop of a word: null, undefined, true, false or an identifier
    (compiler_symbol.cpp:97-107).  The pointer is advanced before anything is
    tested; [s] past the terminator is [None]. *)
Fixpoint word_loop (fuel : nat) (s : ptr) : res (list Z * ptr) :=
  match fuel with
  | O => Loop
  | S f =>
      match s with
      | [] => UB   (* *aux is the terminator, is_end_symbol_token reads the next *)
      | c :: s' =>
          do e <- is_end_symbol_token s' c;
          if e then Ok ([c], s')
          else do r <- word_loop f s'; Ok (c :: fst r, snd r)
      end
  end.
Definition word_token (s : ptr) : res (list Z * ptr) := word_loop (S (List.length s)) s.

(** The token at the start of an operand, compiler_symbol (compiler_symbol.cpp:11-107)
    up to the meaning of a word. *)
Inductive token := TLit (l : literal) | TStr (v : list Z) | TWord (v : list Z).
Definition symbol_token (s : ptr) : res (token * ptr) :=
  do n <- parse_literal_number s;
  match n with
  | Some (l, r) => Ok (TLit l, r)
  | None =>
      do c <- peek 0 s;
      if c =? 34 then do r <- string_literal s; Ok (TStr (fst r), snd r)
      else do r <- word_token s; Ok (TWord (fst r), snd r)
  end.

(** ** The start of an operand *)

Definition pre_spelling (p : preop) : list Z :=
  bytes match p with
  | PreDec => "--" | PreInc => "++" | PreInvalid => "+-/-+" | PreNot => "!" | PreTypeof => "typeof"
  | PrePos => "+" | PreNeg => "-" | PreBwc => "~"
  end%string.

(** What compiler_expression_token_symbol finds after the pre operation
    (compiler_expression_token_symbol.cpp:78-204): a parenthesis, a vector, an object,
    new, a function, or a token of compiler_symbol. *)
Inductive operand := OpdParen | OpdVector | OpdObject | OpdNew | OpdFunction | OpdToken (t : token).

Definition operand_start (s : ptr) (line : Z) : res (option preop * operand * ptr * Z) :=
  do p <- is_pre_operation s;
  do s1 <- (match p with
            | None => Ok s
            | Some PreInvalid => Thr
            | Some q => Ok (adv (List.length (pre_spelling q)) s)
            end);
  do b <- ignore_blanks s1 line;
  let '(s2, line2) := b in
  do c <- peek 0 s2;
  if c =? 40 then Ok (p, OpdParen, s2, line2)
  else
    do k <- is_keyword s2;
    if c =? 91 then Ok (p, OpdVector, s2, line2)
    else if c =? 123 then Ok (p, OpdObject, s2, line2)
    else match k with
         | Some KwNew => Ok (p, OpdNew, s2, line2)
         | Some KwFunction => Ok (p, OpdFunction, s2, line2)
         | _ => do r <- symbol_token s2; Ok (p, OpdToken (fst r), snd r, line2)
         end.

(** After an operator [o] at [s], the next operand (compiler_expression.cpp:132,
    69-81). *)
Definition next_operand (o : operator) (s : ptr) (line : Z) : res (option preop * operand * ptr * Z) :=
  do b <- ignore_blanks (adv (List.length (spelling o)) s) line;
  operand_start (fst b) (snd b).
