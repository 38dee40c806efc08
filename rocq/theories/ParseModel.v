(** * Reading an expression: from characters to the list of operands and operators.

    Modelled source: compiler_sub_expression (src/compiler/compiler_expression.cpp:24-231),
    compiler_expression_token_symbol (src/compiler/compiler_expression_token_symbol.cpp:58-888),
    compiler_symbol (src/compiler/compiler_symbol.cpp:11-213), the check of assignments and the
    reading of [?:] in compiler_expression_to_byte_code
    (src/compiler/compiler_expression_byte_code.cpp:216-300, 431-507).

    Blanks, operators, keywords and tokens are those of [LexModel].  The instructions that
    are emitted on the way are the subject of [ExprModel]; here the result is a tree.  Line
    numbers, which go into messages only, are left out.  All error exits are [Thr].  The
    properties of the call are those of an expression statement or of an operand: no
    EVAL_EXPRESSION_BREAK_ON_ASSIGNMENT_OPERATOR, no FOR_IN_VARIABLES, no ONLY_TOKEN_SYMBOL.

    Parameters of the model: [other], which reads array and object literals, new, functions,
    this, super and A::b (what stands there, and the rest of the text); [kind], whether a
    literal is read by Integer::parse ([Some true]), by Float::parse ([Some false]) or by
    neither; [known], whether a name is declared; [is_type], whether it is the name of a type;
    [makes], whether the code of an expression starts with NEW_OBJECT_BY_TYPE. *)
From Coq Require Import List ZArith Bool String.
From Verif Require Import Base StringModel LexModel.
Import ListNotations.
Local Open Scope Z_scope.

(** What [other] has read. *)
Inductive okind := KVector | KObject | KNew | KFunction | KThis | KSuper | KStatic.

(** Expressions as they are read.  [PIdx PNone]: brackets without an index. *)
Inductive pexpr := PExpr (hd : popnd) (tl : pops) (tn : ptern)
with popnd := POpd (pre : option preop) (c : pcore) (acs : paccs) (post : option bool) (* true: ++ *)
with pcore := CLit (l : literal) | CStr (v : list Z) | CWord (w : list Z) | CParen (e : pexpr) | COther (k : okind) (x : Z)
with pops := PNil | PCons (o : operator) (a : popnd) (os : pops)
with ptern := PNoTern | PTern (e1 : pexpr) (e2 : popt)
with popt := PNone | PSome (e : pexpr)
with paccs := ANil | ACons (a : pacc) (acs : paccs)
with pacc := PCall (args : pargs) | PIdx (e : popt) | PDot (w : list Z)
with pargs := GNil | GCons (e : pexpr) (es : pargs).

Definition blanks (s : ptr) : res ptr := do r <- ignore_blanks s 0; Ok (fst r).

(** Boolean::parse (src/base/Boolean.cpp:8-24): letters in any case. *)
Definition lower (c : Z) : Z := if in_range 65 90 c then c + 32 else c.
Definition list_eqb (a b : list Z) : bool := if list_eq_dec Z.eq_dec a b then true else false.
Definition is_bool (w : list Z) : bool :=
  list_eqb (map lower w) (bytes "true") || list_eqb (map lower w) (bytes "false").

(** is_end_expression, is_anonymous_function, is_end_expression_or_keyword
    (compiler_expression.cpp:8-15, compiler_data.cpp:571-587). *)
Definition is_end_char (c : Z) : bool := existsb (Z.eqb c) [41; 44; 93; 59; 0; 125].
Definition is_anonymous (k : option keyword) (s : ptr) : res bool :=
  match k with
  | Some KwFunction => do b <- blanks (adv 8 s); do c <- peek 0 b; Ok (c =? 40)
  | _ => Ok false
  end.
Definition ends_here (s : ptr) : res bool :=
  do k <- is_keyword s;
  do an <- is_anonymous k s;
  if (an : bool) then Ok false
  else
    do c <- peek 0 s;
    Ok (is_end_char c || match k with None | Some KwThis | Some KwNew => false | Some _ => true end).

(** compiler_get_accessor_name (compiler_expression_token_symbol.cpp:16-22) and the check of
    [this] (533-540). *)
Fixpoint name_loop (s : ptr) : res (list Z * ptr) :=
  match s with
  | [] => Ok ([], [])
  | c :: s' =>
      do e <- is_end_symbol_token s 0;
      if (e : bool) then Ok ([], s) else do r <- name_loop s'; Ok (c :: fst r, snd r)
  end.
Definition accessor_name (s : ptr) : res (list Z * ptr) :=
  do r <- name_loop s;
  do ok <- check_identifier_name (fst r);
  if (ok : bool) && negb (list_eqb (fst r) (bytes "this")) then Ok r else Thr.

(** compiler_is_access_punctuator (compiler_expression_token_symbol.cpp:8-10). *)
Definition punct (s : ptr) : bool := existsb (Z.eqb (hd0 s)) [46; 91; 40].

(** IS_OPERATOR_TYPE_ASSIGN (compiler_operator.h). *)
Definition is_assign (o : operator) : bool :=
  match o with
  | OpAssign | OpAssignAdd | OpAssignSub | OpAssignMul | OpAssignDiv | OpAssignMod
  | OpAssignXor | OpAssignAnd | OpAssignOr | OpAssignShl | OpAssignShr => true
  | _ => false
  end.

(** The last instruction of an operand is a call. *)
Fixpoint last_call (acs : paccs) : bool :=
  match acs with
  | ANil => false
  | ACons (PCall _) ANil => true
  | ACons _ acs' => last_call acs'
  end.

(** The checks of the operands of assignments (compiler_expression_byte_code.cpp:236-291): all
    operators up to the last assignment are assignments, their left sides are names whose last
    instruction is no call. *)
Definition assignable (a : popnd) : bool :=
  match a with
  | POpd pre (CWord _) acs post =>
      negb (last_call acs) || match post with Some _ => true | None => false end
                           || match pre with None | Some PrePos => false | Some _ => true end
  | POpd pre (COther KThis _) acs post | POpd pre (COther KSuper _) acs post | POpd pre (COther KStatic _) acs post =>
      negb (last_call acs)
  | _ => false
  end.
Fixpoint has_assign (tl : pops) : bool :=
  match tl with PNil => false | PCons o _ tl' => is_assign o || has_assign tl' end.
Fixpoint assign_ok (h : popnd) (tl : pops) : bool :=
  match tl with
  | PNil => true
  | PCons o a tl' => if is_assign o then assignable h && assign_ok a tl' else negb (has_assign tl')
  end.

Section Parse.
Variable other : okind -> ptr -> res (Z * ptr).
Variable kind : literal -> option bool.
Variable known is_type : list Z -> bool.
Variable makes : pexpr -> bool.

(** The token types the checks distinguish. *)
Inductive ttype := TyInt | TyFloat | TyBool | TyString | TyVoid | TyIdent | TyParen | TyContainer | TyNew.

(** A word of compiler_symbol (compiler_symbol.cpp:109-196); A::b and types
    (compiler_expression_token_symbol.cpp:204-296). *)
Definition word_core (w : list Z) (at_ : ptr) (r : ptr) : res (pcore * ttype * ptr) :=
  if list_eqb w (bytes "undefined") || list_eqb w (bytes "null") then Ok (CWord w, TyVoid, r)
  else if is_bool w then Ok (CWord w, TyBool, r)
  else if list_eqb w (bytes "this") then do x <- other KThis at_; Ok (COther KThis (fst x), TyIdent, snd x)
  else if list_eqb w (bytes "super") then do x <- other KSuper at_; Ok (COther KSuper (fst x), TyIdent, snd x)
  else
    do ok <- check_identifier_name w;
    if negb ok || negb (known w) then Thr
    else if (hd0 r =? 58) && (hd0 (adv 1 r) =? 58) then
      do x <- other KStatic at_; Ok (COther KStatic (fst x), TyIdent, snd x)
    else Ok (CWord w, TyIdent, r).

(** What is left of the prefix operation once the operand has been read: constants and
    parentheses take some of them in (compiler_symbol.cpp:40-66, 115-120,
    compiler_expression_token_symbol.cpp:95-136). [Thr]: refused. *)
Definition take_pre (pre : option preop) (t : ttype) : res (option preop) :=
  match t, pre with
  | TyInt, Some PreNeg | TyInt, Some PreBwc | TyFloat, Some PreNeg | TyBool, Some PreNot
  | TyParen, Some PreNeg | TyParen, Some PreBwc | TyParen, Some PreNot => Ok None
  | TyFloat, Some PreBwc => Thr
  | _, _ => Ok pre
  end.

(** The value of the token that typeof looks up among the types (821-831). *)
Definition token_value (c : pcore) : list Z :=
  match c with CLit (LText v) => v | CStr v => v | CWord w => w | _ => [] end.
(** The checks of 803-831. *)
Definition pre_ok (left : option preop) (t : ttype) (c : pcore) : bool :=
  match left with
  | None | Some PrePos | Some PreInvalid => true
  | Some PreTypeof => negb (is_type (token_value c))
  | Some _ => match t with TyIdent => true | _ => false end
  end.
(** The checks of 720-748. *)
Definition post_ok (pre : option preop) (t : ttype) : bool :=
  match t with
  | TyIdent => match pre with None | Some PreNeg | Some PreBwc => true | _ => false end
  | _ => false
  end.
(** The operands that may be followed by [.], [\[] or [(] (330-353). *)
Definition access_ok (t : ttype) (c : pcore) (s : ptr) : bool :=
  match t with
  | TyIdent => match c with CWord w => negb (is_type w) | _ => true end
  | TyContainer => true
  | TyString => hd0 s =? 46
  | TyParen => match c with CParen e => makes e && (hd0 s =? 46) | _ => false end
  | _ => false
  end.

Definition newline_in (s u : ptr) : bool :=
  existsb (Z.eqb 10) (firstn (List.length s - List.length u) s).

(** [fuel] bounds the nesting of the calls. *)
Fixpoint p_sub (fuel : nat) (s : ptr) : res (popt * ptr) :=
  match fuel with
  | O => Loop
  | S f =>
      (* compiler_expression.cpp:51-66; the test looks at the character before the blanks *)
      do u <- blanks s;
      if existsb (Z.eqb (hd0 s)) [41; 44; 93; 0; 125] then Thr
      else
        do e <- ends_here u;
        if (e : bool) then Ok (PNone, u)
        else
          do r <- p_toks f u;
          let '(h, tl, v) := r in
          if negb (assign_ok h tl) then Thr
          else if hd0 v =? 63 then
            (* compiler_expression_byte_code.cpp:431-507 *)
            do r1 <- p_sub f (adv 1 v);
            match fst r1 with
            | PNone => Thr    (* it ends at something that is not [:] *)
            | PSome e1 =>
                if negb (hd0 (snd r1) =? 58) then Thr
                else do r2 <- p_sub f (adv 1 (snd r1)); Ok (PSome (PExpr h tl (PTern e1 (fst r2))), snd r2)
            end
          else Ok (PSome (PExpr h tl PNoTern), v)
  end
(** The loop of compiler_expression.cpp:69-140. *)
with p_toks (fuel : nat) (s : ptr) : res (popnd * pops * ptr) :=
  match fuel with
  | O => Loop
  | S f =>
      do r <- p_opnd f s;
      let '(a, aux) := r in
      do u <- blanks aux;
      do o <- is_operator u;
      do e <- ends_here u;
      match o with
      | Some OpTernaryIf | Some OpTernaryElse => Ok (a, PNil, u)
      | Some p =>
          if (e : bool) then Ok (a, PNil, u)
          else
            do v <- blanks (adv (List.length (spelling p)) u);
            do r2 <- p_toks f v;
            let '(b, tl, w) := r2 in Ok (a, PCons p b tl, w)
      | None => if (e : bool) || newline_in aux u then Ok (a, PNil, u) else Thr
      end
  end
(** compiler_expression_token_symbol.cpp:78-885. *)
with p_opnd (fuel : nat) (s : ptr) : res (popnd * ptr) :=
  match fuel with
  | O => Loop
  | S f =>
      do pre <- is_pre_operation s;
      do s1 <- (match pre with
                | None => Ok s
                | Some PreInvalid => Thr
                | Some q => Ok (adv (List.length (pre_spelling q)) s)
                end);
      do s2 <- blanks s1;
      do r <- p_core f pre s2;
      let '(c, t, aux) := r in
      do left <- take_pre pre t;
      do test <- blanks aux;
      do ra <- (if punct test then if access_ok t c test then p_accs f test else Thr else Ok (ANil, aux));
      let '(acs, aux2) := ra in
      do q <- is_post_operation aux2;
      do rp <- (match q with
                | Some PostInc | Some PostDec =>
                    if post_ok pre t
                    then Ok (Some (match q with Some PostInc => true | _ => false end), adv 2 aux2) else Thr
                | _ => Ok (None, aux2)
                end);
      if pre_ok left t c then Ok (POpd pre c acs (fst rp), snd rp) else Thr
  end
with p_core (fuel : nat) (pre : option preop) (s : ptr) : res (pcore * ttype * ptr) :=
  match fuel with
  | O => Loop
  | S f =>
      if hd0 s =? 40 then
        match pre with
        | Some PreInc | Some PreDec => Thr
        | _ =>
            do r <- p_sub f (adv 1 s);
            match fst r with
            | PNone => Thr    (* compiler_instructions.get(0) of an empty vector, 323, 693 *)
            | PSome e => if hd0 (snd r) =? 41 then Ok (CParen e, TyParen, adv 1 (snd r)) else Thr
            end
        end
      else
        do k <- is_keyword s;
        if hd0 s =? 91 then do x <- other KVector s; Ok (COther KVector (fst x), TyContainer, snd x)
        else if hd0 s =? 123 then do x <- other KObject s; Ok (COther KObject (fst x), TyContainer, snd x)
        else
          match k with
          | Some KwNew => do x <- other KNew s; Ok (COther KNew (fst x), TyNew, snd x)
          | Some KwFunction => do x <- other KFunction s; Ok (COther KFunction (fst x), TyContainer, snd x)
          | _ =>
              do r <- symbol_token s;
              match fst r with
              | TLit l =>
                  match kind l with
                  | Some true => Ok (CLit l, TyInt, snd r)
                  | Some false => Ok (CLit l, TyFloat, snd r)
                  | None => Thr
                  end
              | TStr v => Ok (CStr v, TyString, snd r)
              | TWord w => word_core w s (snd r)
              end
          end
  end
(** The loop of 369-687, [s] at an access character. *)
with p_accs (fuel : nat) (s : ptr) : res (paccs * ptr) :=
  match fuel with
  | O => Loop
  | S f =>
      do r <- (if hd0 s =? 40 then
                 do b <- blanks (adv 1 s);
                 do g <- p_args f true b;
                 Ok (PCall (fst g), adv 1 (snd g))
               else if hd0 s =? 91 then
                 do g <- p_sub f (adv 1 s);
                 if hd0 (snd g) =? 93 then Ok (PIdx (fst g), adv 1 (snd g)) else Thr
               else
                 do b <- blanks (adv 1 s);
                 do g <- accessor_name b;
                 Ok (PDot (fst g), snd g));
      let '(a, aux) := r in
      do test <- blanks aux;
      if punct test then do r2 <- p_accs f test; Ok (ACons a (fst r2), snd r2)
      else Ok (ACons a ANil, aux)
  end
(** The arguments of a call (413-477), up to the closing parenthesis. *)
with p_args (fuel : nat) (first : bool) (s : ptr) : res (pargs * ptr) :=
  match fuel with
  | O => Loop
  | S f =>
      if hd0 s =? 41 then Ok (GNil, s)
      else
        do b <- (if first then Ok s else if hd0 s =? 44 then blanks (adv 1 s) else Thr);
        if negb first && (hd0 b =? 41) then Ok (GNil, b)
        else
          do r <- p_sub f b;
          match fst r with
          | PNone =>    (* it ends at a character that is neither a comma nor a parenthesis *)
              Thr
          | PSome e => do g <- p_args f false (snd r); Ok (GCons e (fst g), snd g)
          end
  end.

Definition fuel_for (s : ptr) : nat := (8 * S (List.length s))%nat.
(** compiler_sub_expression: the expression, or none, and the rest. *)
Definition parse (s : ptr) : res (popt * ptr) := p_sub (fuel_for s) s.
End Parse.
