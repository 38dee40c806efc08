(** * From the text of an expression to its byte code.

    The reading of an expression ([ParseModel]) and the compiler of operands and operators
    ([ExprModel]) put together: the instructions of the operands that compiler_symbol
    (src/compiler/compiler_symbol.cpp:37-207) and compiler_expression_token_symbol
    (src/compiler/compiler_expression_token_symbol.cpp:95-136, 720-872) push, and the division
    of the tokens into assignments, operators and conditional of
    compiler_expression_to_byte_code (src/compiler/compiler_expression_byte_code.cpp:216-562).

    Only operands without accesses are covered: constants, variables, parentheses, prefixes and
    counting.  [None]: another operand. *)
From Coq Require Import List ZArith Bool String.
From Verif Require Import Base StringModel LexModel ParseModel FloatModel ExprModel.
Import ListNotations.
Local Open Scope Z_scope.

(** The operators of the two parts. *)
Definition bop_of (o : operator) : option bop :=
  match o with
  | OpLogicAnd => Some O_LAND | OpLogicOr => Some O_LOR
  | OpEqual => Some O_EQ | OpNotEqual => Some O_NE | OpGte => Some O_GTE | OpLte => Some O_LTE
  | OpGt => Some O_GT | OpLt => Some O_LT
  | OpAdd => Some O_ADD | OpSub => Some O_SUB | OpXor => Some O_XOR | OpMul => Some O_MUL
  | OpAnd => Some O_AND | OpDiv => Some O_DIV | OpMod => Some O_MOD | OpOr => Some O_OR
  | OpShl => Some O_SHL | OpShr => Some O_SHR | OpInstanceof => Some O_INST | OpIn => Some O_IN
  | _ => None
  end.
Definition asop_of (o : operator) : option asop :=
  match o with
  | OpAssign => Some A_SET | OpAssignAdd => Some A_ADD | OpAssignSub => Some A_SUB
  | OpAssignMul => Some A_MUL | OpAssignDiv => Some A_DIV | OpAssignMod => Some A_MOD
  | OpAssignXor => Some A_XOR | OpAssignAnd => Some A_AND | OpAssignOr => Some A_OR
  | OpAssignShl => Some A_SHL | OpAssignShr => Some A_SHR
  | _ => None
  end.

Section Text.
(** The number a literal stands for (Integer::parse, Float::parse); the contents of a string
    constant; the variable a name stands for. *)
Variable lit : literal -> option const.
Variable text : list Z -> list Z.
Variable at_ : list Z -> option var.

(** compiler_symbol.cpp:37-69: which of the two parses it. *)
Definition kind_of (l : literal) : option bool :=
  match lit l with Some (KInt _) => Some true | Some (KFloat _) => Some false | _ => None end.

(** compiler_symbol.cpp:109-186: words. *)
Definition word_of (w : list Z) : option operand :=
  if list_eqb w (bytes "undefined") then Some AUndef
  else if list_eqb w (bytes "null") then Some ANull
  else if list_eqb (map lower w) (bytes "true") then Some (AConst (KBool true))
  else if list_eqb (map lower w) (bytes "false") then Some (AConst (KBool false))
  else match at_ w with Some x => Some (AVar x) | None => None end.

(** The instruction of a prefix, or the changed constant
    (compiler_symbol.cpp:40-56, 115-120; compiler_expression_token_symbol.cpp:120-131,
    803-872).  The negative of the least integer is not defined. *)
Definition prefixed (pre : option preop) (a : operand) : option operand :=
  match pre, a with
  | None, _ | Some PrePos, _ => Some a
  | Some PreTypeof, _ => Some (AUn U_TYPEOF a)
  | Some PreNeg, AConst (KInt z) => if z =? - 2 ^ 63 then None else Some (AConst (KInt (- z)))
  | Some PreBwc, AConst (KInt z) => Some (AConst (KInt (Z.lnot z)))
  | Some PreNeg, AConst (KFloat f) => Some (AConst (KFloat (fopp f)))
  | Some PreNot, AConst (KBool b) => Some (AConst (KBool (negb b)))
  | Some PreInc, AVar x => Some (AIncDec false true (TVar x))
  | Some PreDec, AVar x => Some (AIncDec false false (TVar x))
  | Some PreNeg, (AVar _ | AParen _ | AIncDec _ _ _) => Some (AUn U_NEG a)
  | Some PreBwc, (AVar _ | AParen _ | AIncDec _ _ _) => Some (AUn U_BWC a)
  | Some PreNot, (AVar _ | AParen _) => Some (AUn U_NOT a)
  | _, _ => None
  end.
(** compiler_expression_token_symbol.cpp:720-801. *)
Definition counted (post : option bool) (a : operand) : option operand :=
  match post, a with
  | None, _ => Some a
  | Some inc, AVar x => Some (AIncDec true inc (TVar x))
  | _, _ => None
  end.
(** What is assigned to: a variable is loaded as a reference
    (compiler_expression_byte_code.cpp:236-331). *)
Definition target_of (a : operand) : option target := match a with AVar x => Some (TVar x) | _ => None end.

Fixpoint operand_of (a : popnd) : option operand :=
  match a with
  | POpd pre c ANil post =>
      match core_of c with
      | Some x => match counted post x with Some y => prefixed pre y | None => None end
      | None => None
      end
  | _ => None
  end
with core_of (c : pcore) : option operand :=
  match c with
  | CLit l => match lit l with Some k => Some (AConst k) | None => None end
  | CStr v => Some (AConst (KStr (text v)))
  | CWord w => word_of w
  | CParen e => match expr_of e with Some x => Some (AParen x) | None => None end
  | COther _ _ => None
  end
with expr_of (e : pexpr) : option expr :=
  match e with
  | PExpr h tl tn =>
      match chain_of (operand_of h) tl, tern_of tn with
      | Some (ts, hd, os), Some t => Some (Expr ts hd os t)
      | _, _ => None
      end
  end
(** The assignments come first, compiler_expression_byte_code.cpp:236-331. *)
with chain_of (h : option operand) (tl : pops) : option (targets * operand * ops) :=
  match tl with
  | PNil => match h with Some a => Some (TgNil, a, ONil) | None => None end
  | PCons o a tl' =>
      match h with
      | None => None
      | Some ha =>
          match asop_of o, bop_of o with
          | Some s, _ =>
              match target_of ha, chain_of (operand_of a) tl' with
              | Some t, Some (ts, hd, os) => Some (TgCons t s ts, hd, os)
              | _, _ => None
              end
          | None, Some b =>
              match chain_of (operand_of a) tl' with
              | Some (TgNil, a2, os) => Some (TgNil, ha, OCons b a2 os)
              | _ => None
              end
          | None, None => None
          end
      end
  end
with tern_of (t : ptern) : option tern :=
  match t with
  | PNoTern => Some TNone
  | PTern e1 (PSome e2) =>
      match expr_of e1, expr_of e2 with Some a, Some b => Some (TSome a b) | _, _ => None end
  | PTern _ PNone => None
  end.

Lemma operand_of_eq : forall pre c post, operand_of (POpd pre c ANil post) =
  match core_of c with
  | Some x => match counted post x with Some y => prefixed pre y | None => None end
  | None => None
  end.
Proof. reflexivity. Qed.
Lemma core_word_eq : forall w, core_of (CWord w) = word_of w.
Proof. reflexivity. Qed.
Lemma core_paren_eq : forall e, core_of (CParen e) = match expr_of e with Some x => Some (AParen x) | None => None end.
Proof. reflexivity. Qed.
Lemma expr_of_eq : forall h tl tn, expr_of (PExpr h tl tn) =
  match chain_of (operand_of h) tl, tern_of tn with
  | Some (ts, hd, os), Some t => Some (Expr ts hd os t)
  | _, _ => None
  end.
Proof. reflexivity. Qed.
Lemma chain_of_eq : forall h o a tl, chain_of h (PCons o a tl) =
  match h with
  | None => None
  | Some ha =>
      match asop_of o, bop_of o with
      | Some s, _ =>
          match target_of ha, chain_of (operand_of a) tl with
          | Some t, Some (ts, hd, os) => Some (TgCons t s ts, hd, os)
          | _, _ => None
          end
      | None, Some b =>
          match chain_of (operand_of a) tl with
          | Some (TgNil, a2, os) => Some (TgNil, ha, OCons b a2 os)
          | _ => None
          end
      | None, None => None
      end
  end.
Proof. reflexivity. Qed.

(** compiler_expression (src/compiler/compiler_expression.cpp:233-310) on a text: the byte code
    and the rest of the text.  [None]: refused, or not covered. *)
Variable other : okind -> ptr -> res (Z * ptr).
Variable known is_type : list Z -> bool.
Variable makes : pexpr -> bool.
Variable foldk : bop -> const -> const -> fold.
Definition compile_text (s : ptr) : option (code * ptr) :=
  match parse other kind_of known is_type makes s with
  | Ok (PSome e, r) =>
      match expr_of e with
      | Some x => match comp_expr foldk [] x with Some c => Some (c, r) | None => None end
      | None => None
      end
  | _ => None
  end.
End Text.
