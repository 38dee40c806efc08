(** * Statements: from source to byte code.

    Modelled sources: src/compiler/compiler_expression.cpp:244-529 (expression
    statements, sequences, multiple assignment), compiler_keyword_var.cpp,
    compiler_keyword_conditional.cpp (if, switch), compiler_keyword_loop.cpp
    (while, do-while, for, for-in, break, continue), compiler_keyword_function.cpp:606-672
    (return) and the blocks of compiler.cpp:150-255.

    The lexer is not part of this file: statements are given as syntax trees.
    Not modelled: const, functions and classes declared inside,
    assignment of a call's several return values ([a,b=f()]).

    The compiler appends to one instruction vector per function and all jump
    offsets it stores are differences of positions, so the model computes the
    code of each statement on its own.  The one place where the vector's
    earlier contents matter is the check of the last two instructions for
    constants while a condition is compiled; after any finished statement the
    last instruction is no constant, so this only concerns the condition of a
    [for] after its initialisation, and there the model passes it on. *)
From Coq Require Import ZArith List Bool Lia.
From Verif Require Import Base FloatModel ExprModel VmModel.
Import ListNotations.
Local Open Scope Z_scope.

(** [case a:] and [default:]. *)
Inductive label := LCase (a : operand) | LDefault.

(** The initialisation of a [for]. *)
Inductive forinit := FiNone | FiVars (vs : list (var * option expr)) | FiExprs (es : exprs).

(** A block carries the identity of its scope ([new ScriptScope]). *)
Inductive stmt :=
| SSkip
| SExprs (es : exprs)                      (* e1, ..., en; *)
| SMulti (ls : list target) (rs : exprs)   (* l1, ..., ln = r1, ..., rm; *)
| SVar (x : var) (e : option expr)         (* var x; or var x = e; *)
| SReturn (es : exprs)
| SBlock (b : block)
| SIf (c : expr) (b : block) (r : els)
| SWhile (c : expr) (b : block)
| SDo (b : block) (c : expr)
| SFor (z : Z) (init : forinit) (c : option expr) (post : exprs) (b : block)
| SForIn (z : Z) (xs : list nat) (it : nat) (a : operand) (b : block)
                                           (* for(x1,...,xn in a), it: the hidden iterator variable *)
| SSwitch (e : expr) (cs : clauses)
| SBreak
| SContinue
with els := ElNone | ElBlock (b : block) | ElIf (c : expr) (b : block) (r : els)
with block := Blk (z : Z) (ss : stmts)
with stmts := SNil | SCons (s : stmt) (ss : stmts)
(* labels, statements, and whether a [break] ends the clause *)
with clauses := CNil | CCons (ls : list label) (ss : stmts) (brk : bool) (cs : clauses).

(** Does a statement sequence declare variables in its own scope?  The bodies
    of a switch belong to the scope around it
    (compiler_keyword_conditional.cpp:334-340). *)
Fixpoint decl_stmt (s : stmt) : bool :=
  match s with
  | SVar _ _ => true
  | SSwitch _ cs => decl_clauses cs
  | _ => false
  end
with decl_stmts (ss : stmts) : bool :=
  match ss with SNil => false | SCons s ss' => decl_stmt s || decl_stmts ss' end
with decl_clauses (cs : clauses) : bool :=
  match cs with CNil => false | CCons _ ss _ cs' => decl_stmts ss || decl_clauses cs' end.

Section Compile.
Variable foldk : bop -> const -> const -> fold.
(** Which [Prim] instructions are calls (BYTE_CODE_IS_CALL, src/core/ByteCode.h:40-45). *)
Variable is_call : Z -> bool.

(** INSTRUCTION_PROPERTY_RESET_STACK set on the last instruction if it is a
    call, a store or an increment; otherwise RESET_STACK appended when
    EVAL_EXPRESSION_RESET_STACK_LAST_LOAD is given, as for expression statements
    (compiler_expression.cpp:460-479). *)
Definition with_reset (i : instr) : option instr :=
  match i with
  | IncDec p n _ => Some (IncDec p n true)
  | Asg a _ => Some (Asg a true)
  | Store n _ => Some (Store n true)
  | Prim p n _ => if is_call p then Some (Prim p n true) else None
  | _ => None
  end.
Definition finish (last_load : bool) (c : code) : code :=
  match rev c with
  | [] => c
  | i :: r =>
      match with_reset i with
      | Some i' => rev r ++ [i']
      | None => if last_load then c ++ [Reset] else c
      end
  end.

(** The expressions of a sequence, each compiled on its own
    (compiler_expression.cpp:266-318, 406-415). *)
Fixpoint comp_seq (es : exprs) : option code :=
  match es with
  | ENil => Some []
  | ECons e es' =>
      match comp_expr foldk [] e, comp_seq es' with
      | Some c, Some cs => Some (c ++ cs)
      | _, _ => None
      end
  end.

(** Multiple assignment (compiler_expression.cpp:283-392): the right sides from
    the last to the first, padded with undefined on the right, then the targets
    from the first to the last, then one STORE.  Fewer than
    ZS_SCRIPT_FUNCTION_RETURN_COUNT_MAX = 16 targets.  A single right side
    containing a call is not modelled ([None]). *)
Fixpoint codes (es : exprs) : option (list code) :=
  match es with
  | ENil => Some []
  | ECons e es' =>
      match comp_expr foldk [] e, codes es' with
      | Some c, Some cs => Some (c :: cs)
      | _, _ => None
      end
  end.
Fixpoint comp_ltargets (ts : list target) : option code :=
  match ts with
  | [] => Some []
  | t :: ts' =>
      match comp_target foldk t, comp_ltargets ts' with
      | Some c, Some cs => Some (c ++ cs)
      | _, _ => None
      end
  end.
Definition has_call (c : code) : bool :=
  existsb (fun i => match i with Prim p _ _ => is_call p | _ => false end) c.
Definition comp_multi (ls : list target) (rs : exprs) : option code :=
  match codes rs, comp_ltargets ls with
  | Some cs, Some ct =>
      match cs with
      | [] => None
      | c :: cs' =>
          if (16 <=? length ls)%nat || (length ls <? 2)%nat
             || (match cs' with [] => has_call c | _ => false end) then None
          else
            Some (concat (rev (cs ++ repeat [LoadUndef] (length ls - length cs)%nat))
                  ++ ct ++ [Store (length ls) true])
      end
  | _, _ => None
  end.

(** [var x = e] is compiled as the expression [x = e]
    (compiler_keyword_var.cpp). *)
Definition var_expr (x : var) (e : expr) : expr :=
  match e with Expr ts hd tl tn => Expr (TgCons (TVar x) A_SET ts) hd tl tn end.
Definition comp_var (x : var) (oe : option expr) : option code :=
  match oe with
  | None => Some []
  | Some e => match comp_expr foldk [] (var_expr x e) with Some c => Some (finish false c) | None => None end
  end.
Fixpoint comp_vars (vs : list (var * option expr)) : option code :=
  match vs with
  | [] => Some []
  | (x, oe) :: vs' =>
      match comp_var x oe, comp_vars vs' with
      | Some c, Some cs => Some (c ++ cs)
      | _, _ => None
      end
  end.

(** return e1, ..., en; a single global load is returned as a reference
    (compiler_keyword_function.cpp:643-655, PUSH_STK_GLOBAL_IRGO). *)
Definition as_ret (c : code) : code :=
  match c with [LoadVar (Global n)] => [PushVar (Global n)] | _ => c end.
Fixpoint comp_rets (es : exprs) : option code :=
  match es with
  | ENil => Some []
  | ECons e es' =>
      match comp_expr foldk [] e, comp_rets es' with
      | Some c, Some cs => Some (as_ret c ++ cs)
      | _, _ => None
      end
  end.

(** link_loop_break_continues (compiler_keyword_loop.cpp:19-38): the jumps still
    marked as break or continue get their offsets; [b] and [k] are the target
    positions, [i] the position of the first instruction of [c]. *)
Fixpoint link (b k i : Z) (c : code) : code :=
  match c with
  | [] => []
  | Jmp BreakMark _ :: c' => Jmp NoMark (b - i) :: link b k (i + 1) c'
  | Jmp ContinueMark _ :: c' => Jmp NoMark (k - i) :: link b k (i + 1) c'
  | x :: c' => x :: link b k (i + 1) c'
  end.
(** The same for the breaks of a switch only
    (compiler_keyword_conditional.cpp:443-450). *)
Fixpoint link_break (b i : Z) (c : code) : code :=
  match c with
  | [] => []
  | Jmp BreakMark _ :: c' => Jmp NoMark (b - i) :: link_break b (i + 1) c'
  | x :: c' => x :: link_break b (i + 1) c'
  end.

Definition zlen (c : code) : Z := Z.of_nat (length c).

(** if (compiler_keyword_conditional.cpp:18-131): condition, JNT past the block
    (and past the JMP if an else follows), block, JMP past the rest of the
    chain, rest. *)
Definition if_code (cc cb : code) (rest : option code) : code :=
  match rest with
  | None => cc ++ [Jnt NoMark (zlen cb + 1)] ++ cb
  | Some cr => cc ++ [Jnt NoMark (zlen cb + 2)] ++ cb ++ [Jmp NoMark (zlen cr + 1)] ++ cr
  end.

(** while (compiler_keyword_loop.cpp:98-195). *)
Definition while_code (cc cb : code) : code :=
  let c := cc ++ [Jnt NoMark (zlen cb + 3)] ++ cb
           ++ [Jmp NoMark (- (zlen cc + 1 + zlen cb)); PopScope] in
  link (zlen c - 1) (zlen c - 3) 0 c.

(** do-while (compiler_keyword_loop.cpp:197-312). *)
Definition do_code (cb cc : code) : code :=
  let c := cb ++ cc ++ [Jt NoMark (- (zlen cb + zlen cc)); Jmp NoMark 2; PopScope] in
  link (zlen c - 1) (zlen cb - 1) 0 c.

(** for (compiler_keyword_loop.cpp:314-857, not for-in).  [ci] initialisation;
    [cic] initialisation followed by the condition, if there is one; without a
    condition the loop returns to the start of the initialisation
    (idx_instruction_for_start is only moved at line 660).  [wrap]: does the
    initialisation declare variables? *)
Definition for_code (z : Z) (wrap : bool) (ci : code) (cic : option code) (cb cp : code) : code :=
  let c :=
    match cic with
    | Some c1 =>
        c1 ++ [Jnt NoMark (zlen cb + zlen cp + 3)] ++ cb ++ cp
           ++ [Jmp NoMark (- (zlen c1 - zlen ci + 1 + zlen cb + zlen cp)); PopScope]
    | None => ci ++ cb ++ cp ++ [Jmp NoMark (- (zlen ci + zlen cb + zlen cp)); PopScope]
    end in
  let c' := link (zlen c - 1) (zlen c - 2 - zlen cp - 1) 0 c in
  if wrap then [PushScope z] ++ c' ++ [PopScope] else c'.

(** for-in (compiler_keyword_loop.cpp:392-670 and 757-857): the container and the
    hidden iterator variable go to IT_INIT; then, from the loop start, [_end] is
    asked with one return value, [_get] with as many as there are variables, in
    the four bits the encoding has (INSTRUCTION_SET_VALUE_OP1_RETURN_AND_PARAMETER_COUNT,
    src/core/Instruction.h), and after the body [_next] with none.  The variables
    are local (line 421).  The iterator variable belongs to the scope around
    the loop, so this scope always has its own block. *)
Definition it_ask (it : nat) (k : itfun) (n : nat) (rst : bool) : code :=
  [LoadVar (Local it); ItLoad k; ItCall n rst].
Definition it_get (xs : list nat) (it : nat) : code :=
  it_ask it ItGet (length xs mod 16) false ++ map (fun x => PushVar (Local x)) xs ++ [Store (length xs) true].
Definition forin_loop (xs : list nat) (it : nat) (cb : code) : code :=
  let ce := it_ask it ItEnd 1 false in
  let cg := it_get xs it in
  let cp := it_ask it ItNext 0 true in
  let c := ce ++ [Jt NoMark (zlen cg + zlen cb + zlen cp + 3)] ++ cg ++ cb ++ cp
             ++ [Jmp NoMark (- (zlen ce + 1 + zlen cg + zlen cb + zlen cp)); PopScope] in
  link (zlen c - 1) (zlen c - 2 - zlen cp - 1) 0 c.
Definition forin_code (z : Z) (xs : list nat) (it : nat) (ca cb : code) : code :=
  [PushScope z] ++ (ca ++ [PushVar (Local it); ItInit]) ++ forin_loop xs it cb ++ [PopScope].

(** Containers that are rejected at compile time (lines 489-505). *)
Definition it_const (c : code) : bool :=
  match c with
  | LoadUndef :: _ | LoadNull :: _ | LoadK (KFloat _) :: _ | LoadK (KBool _) :: _ | LoadK (KInt _) :: _ => true
  | _ => false
  end.

(** switch (compiler_keyword_conditional.cpp:168-481).  The clauses yield the
    bodies' code, the case labels with the offset of their body, and the offset
    of the default body.  [off] is the length of the bodies before. *)
Fixpoint comp_labels (off : Z) (ls : list label) : option (list (code * Z) * option Z) :=
  match ls with
  | [] => Some ([], None)
  | LCase a :: ls' =>
      match comp_operand foldk a, comp_labels off ls' with
      | Some c, Some (l, d) => Some ((finish false c, off) :: l, d)
      | _, _ => None
      end
  | LDefault :: ls' =>
      match comp_labels off ls' with
      | Some (l, None) => Some (l, Some off)
      | _ => None   (* second default *)
      end
  end.
(** The load and the JE_CASE of each label; [n] is the number of header
    instructions from here to the last JMP inclusive. *)
Fixpoint header (n : Z) (l : list (code * Z)) : code :=
  match l with
  | [] => []
  | (c, off) :: l' =>
      c ++ [JeCase (n - zlen c + off)] ++ header (n - zlen c - 1) l'
  end.
Definition header_len (l : list (code * Z)) : Z :=
  fold_right (fun p n => zlen (fst p) + 1 + n) 1 l.
Definition switch_code (ce body : code) (l : list (code * Z)) (d : option Z) : code :=
  match body, l with
  | [], _ => []
  | _, [] => body    (* no case labels: only the bodies are left, lines 466-470 *)
  | _, _ =>
      let last := match d with
                  | Some off => JmpCase (off + 1)
                  | None => Jmp NoMark (zlen body + 1)
                  end in
      let c := ce ++ header (header_len l) l ++ [last] ++ body in
      link_break (zlen c) 0 c
  end.
Definition last_default (ls : list label) : bool :=
  match rev ls with LDefault :: _ => true | _ => false end.

(** The initialisation of a [for]: variables or an expression sequence
    (compiler_keyword_loop.cpp:352-414, 608-622). *)
Definition comp_init (i : forinit) : option code :=
  match i with
  | FiNone => Some []
  | FiVars vs => comp_vars vs
  | FiExprs es => match comp_seq es with Some c => Some (finish false c) | None => None end
  end.

(** Statements.  [n] is numInnerScopes of the current scope (ScriptScope.cpp:58-65,
    97-99), [lp] and [sw] say whether a loop, a switch is around (parsing_loop,
    parsing_switch); [None] is a compile error. *)
Fixpoint comp_stmt (n : nat) (lp sw : bool) (s : stmt) : option code :=
  match s with
  | SSkip => Some []
  | SExprs es =>
      match comp_seq es with Some c => Some (finish true c) | None => None end
  | SMulti ls rs => comp_multi ls rs
  | SVar x oe => comp_var x oe
  | SReturn es => match comp_rets es with Some c => Some (c ++ [Ret]) | None => None end
  | SBlock b => comp_block n lp sw false b
  | SIf c b r =>
      match comp_expr foldk [] c, comp_block n lp sw false b, comp_els n lp sw r with
      | Some cc, Some cb, Some cr => Some (if_code cc cb cr)
      | _, _, _ => None
      end
  | SWhile c b =>
      match comp_expr foldk [] c, comp_block n true sw true b with
      | Some cc, Some cb => Some (while_code cc cb)
      | _, _ => None
      end
  | SDo b c =>
      match comp_expr foldk [] c, comp_block n true sw true b with
      | Some cc, Some cb => Some (do_code cb cc)
      | _, _ => None
      end
  | SFor z init c post b =>
      match comp_init init, comp_block (S n) true sw true b, comp_seq post with
      | Some ci, Some cb, Some cp =>
          let wrap := match init with FiVars _ => true | _ => false end in
          match c with
          | None => Some (for_code z wrap ci None cb (finish false cp))
          | Some e =>
              match comp_expr foldk ci e with
              | Some c1 => Some (for_code z wrap ci (Some c1) cb (finish false cp))
              | None => None
              end
          end
      | _, _, _ => None
      end
  | SForIn z xs it a b =>
      match comp_operand foldk a, comp_block (S n) true sw true b with
      | Some ca, Some cb => if it_const ca then None else Some (forin_code z xs it ca cb)
      | _, _ => None
      end
  | SSwitch e cs =>
      match comp_expr foldk [] e, comp_clauses n lp 0 cs with
      | Some ce, Some (body, l, d) => Some (switch_code ce body l d)
      | _, _ => None
      end
  | SBreak => if lp || sw then Some [Jmp BreakMark 0] else None
  | SContinue => if lp then Some [Jmp ContinueMark 0] else None
  end
with comp_els (n : nat) (lp sw : bool) (r : els) : option (option code) :=
  match r with
  | ElNone => Some None
  | ElBlock b => match comp_block n lp sw false b with Some c => Some (Some c) | None => None end
  | ElIf c b r' =>
      match comp_expr foldk [] c, comp_block n lp sw false b, comp_els n lp sw r' with
      | Some cc, Some cb, Some cr => Some (Some (if_code cc cb cr))
      | _, _, _ => None
      end
  end
with comp_block (n : nat) (lp sw : bool) (loop : bool) (b : block) : option code :=
  (* compiler_block_internal, compiler_check_scope: compiler.cpp:160-245 *)
  match b with
  | Blk z ss =>
      if (10 <=? n)%nat then None else
      match comp_stmts (S n) lp sw ss with
      | None => None
      | Some c => Some (if decl_stmts ss || loop then [PushScope z] ++ c ++ [PopScope] else c)
      end
  end
with comp_stmts (n : nat) (lp sw : bool) (ss : stmts) : option code :=
  match ss with
  | SNil => Some []
  | SCons s ss' =>
      match comp_stmt n lp sw s, comp_stmts n lp sw ss' with
      | Some c, Some cs => Some (c ++ cs)
      | _, _ => None
      end
  end
with comp_clauses (n : nat) (lp : bool) (off : Z) (cs : clauses)
  : option (code * list (code * Z) * option Z) :=
  match cs with
  | CNil => Some ([], [], None)
  | CCons ls ss brk cs' =>
      match comp_labels off ls, comp_stmts n lp true ss with
      | Some (l, d), Some c =>
          if last_default ls && negb brk then None else
          let c1 := if brk then match cs' with CNil => c | _ => c ++ [Jmp BreakMark 0] end else c in
          match comp_clauses n lp (off + zlen c1) cs' with
          | Some (body, l', d') =>
              match d, d' with
              | Some _, Some _ => None
              | Some x, None => Some (c1 ++ body, l ++ l', Some x)
              | None, _ => Some (c1 ++ body, l ++ l', d')
              end
          | None => None
          end
      | _, _ => None
      end
  end.

(** The body of a function ends with END_FUNCTION, the zero byte code of the extra instruction (compiler.cpp:565-570); [n] is
    numInnerScopes of the function's scope. *)
Definition comp_fun (n : nat) (ss : stmts) : option code :=
  match comp_stmts n false false ss with Some c => Some (c ++ [EndFun]) | None => None end.

End Compile.
