(** * Expressions: byte code compiler and the part of the virtual machine that
      runs the byte code of an expression.

    Modelled sources: src/compiler/compiler_operator.h,
    src/compiler/compiler_expression_byte_code.cpp,
    src/compiler/compiler_expression_optimize.cpp,
    src/compiler/compiler_expression_token_symbol.cpp (the instructions emitted
    per operand), src/vm/vm_script_function.cpp and src/vm/vm_pop_stk.h.

    The lexer is not part of this file: an expression is given as the list of
    tokens [compiler_sub_expression] collects, every operand token carrying its
    own operands.  What the machine does with values (operators, calls, stores)
    is a parameter, the record [Sem] below, so that the results hold for every
    such behaviour; [ExprZs] instantiates it with the operators of
    [ValueModel]. *)
From Coq Require Import ZArith List Bool Lia.
From Coq Require Import SpecFloat.
From Verif Require Import Base StringModel FloatModel.
Import ListNotations.
Local Open Scope Z_scope.

(** ** Operators, src/compiler/compiler_operator.h:70-118. *)
Inductive bop :=
| O_LOR | O_LAND
| O_EQ | O_NE | O_GTE | O_LTE | O_GT | O_LT
| O_ADD | O_SUB | O_XOR | O_MUL | O_AND | O_DIV | O_MOD | O_OR | O_SHL | O_SHR
| O_INST | O_IN.

(** get_preference_operator_group with the macros of
    src/compiler/compiler_operator.h:8-66: group 0 is split first (binds
    least). *)
Definition group (o : bop) : Z :=
  match o with
  | O_LOR => 0
  | O_LAND => 1
  | O_EQ | O_NE | O_GTE | O_LTE | O_GT | O_LT => 2
  | O_ADD | O_SUB => 3
  | O_MUL | O_DIV | O_MOD => 4
  | O_OR | O_XOR => 5
  | O_AND => 6
  | O_SHL | O_SHR => 7
  | O_INST | O_IN => 8
  end.

(** Prefix operators that become one instruction after their operand,
    src/compiler/compiler_expression_token_symbol.cpp:803-872. *)
Inductive uop := U_NEG | U_NOT | U_BWC | U_TYPEOF.

(** Assignment operators, src/compiler/compiler_operator.h:75-86. *)
Inductive asop :=
| A_SET | A_ADD | A_SUB | A_MUL | A_DIV | A_MOD | A_XOR | A_AND | A_OR | A_SHL | A_SHR.

(** Constants that fit in an instruction: the byte codes LOAD_INT, LOAD_FLOAT,
    LOAD_BOOL and LOAD_STRING (src/core/ByteCode.h:20-26). *)
Inductive const := KInt (z : Z) | KFloat (f : f64) | KBool (b : bool) | KStr (s : list Z).

(** Variables by access kind: LOAD_LOCAL, LOAD_THIS_VARIABLE, LOAD_GLOBAL. *)
Inductive var := Local (i : nat) | This (i : nat) | Global (i : nat).

(** ** Instructions, src/core/ByteCode.h:86-260 and src/core/Instruction.h.

    [Bin] keeps value_op1, value_op2 and properties as the compiler packs them;
    value_op2 is either raw or the constant itself.  [mark] is value_op1 of a
    jump: the placeholders INSTRUCTION_VALUE_OP1_* of Instruction.h:9-13.
    [Prim p n] stands for any other instruction that takes [n] stack elements
    and leaves one (calls, item access, object literals), [LPrim] for those
    that leave a reference (PUSH_STK_ARRAY_ITEM and the like).  The [bool] of
    [Prim], [IncDec] and [Asg] is INSTRUCTION_PROPERTY_RESET_STACK. *)
Inductive mark := NoMark | NextOr | LogicOk | BreakMark | ContinueMark.

Inductive op2 := Raw (z : Z) | Cst (k : const).

(** The member functions a for-in loop calls on its iterator
    (src/compiler/compiler_keyword_loop.cpp:581, 618, 656). *)
Inductive itfun := ItEnd | ItGet | ItNext.

Inductive instr :=
| LoadK (k : const)
| LoadUndef | LoadNull | LoadFun (f : Z) | LoadType (t : Z)
| LoadVar (x : var)
| PushVar (x : var)
| Bin (o : bop) (op1 : Z) (v2 : op2) (props : Z)
| Un (u : uop)
| Inst (t : Z)
| IncDec (post : bool) (inc : bool) (rst : bool)
| Asg (a : asop) (rst : bool)
| Store (n : nat) (rst : bool)
| Prim (p : Z) (n : nat) (rst : bool)
| LPrim (p : Z) (n : nat)
| ItInit                        (* IT_INIT, always with RESET_STACK *)
| ItLoad (k : itfun)            (* LOAD_OBJECT_ITEM of an iterator's member function *)
| ItCall (n : nat) (rst : bool) (* MEMBER_CALL of it without arguments, n return values *)
| Jmp (m : mark) (off : Z)
| Jnt (m : mark) (off : Z)
| Jt (m : mark) (off : Z)
| JeCase (off : Z)
| JmpCase (off : Z)
| Reset
| PushScope (s : Z)
| PopScope
| Ret
| EndFun.

Definition code := list instr.

(** Instruction properties, src/core/Instruction.h:66-82. *)
Definition P_ILOAD_K := 2.
Definition P_ILOAD_R := 4.
Definition P_THIS_VAR := 16.
Definition P_ILOAD_KR := 32.
Definition P_ILOAD_RK := 64.
Definition P_ILOAD_RR := 128.
Definition P_KINT := 256.
Definition P_KFLOAT := 512.
Definition P_KBOOL := 1024.
Definition P_KSTRING := 2048.
(** INSTRUCTION_PROPERTY_ILOAD, src/core/Instruction.h:25. *)
Definition P_ILOAD := 230.

(** ** Source expressions: the tokens of [compiler_sub_expression]
    (src/compiler/compiler_expression.cpp:24-231) with the operands parsed.

    An expression is [target op]* operand (binop operand)* [? expr : expr].
    Modelled simplification: a literal sign is already part of the constant
    (src/compiler/compiler_symbol.cpp:40-47, 53-56, 115-118). *)
Inductive operand :=
| AConst (k : const)
| AUndef | ANull | AFun (f : Z) | AType (t : Z)
| AVar (x : var)
| AIncDec (post inc : bool) (t : target)
| APrim (p : Z) (args : exprs)
| AParen (e : expr)
| AUn (u : uop) (a : operand)
with expr := Expr (ts : targets) (hd : operand) (tl : ops) (tn : tern)
with exprs := ENil | ECons (e : expr) (es : exprs)
with ops := ONil | OCons (o : bop) (a : operand) (os : ops)
with tern := TNone | TSome (e1 e2 : expr)
with targets := TgNil | TgCons (t : target) (a : asop) (ts : targets)
with target := TVar (x : var) | TPrim (p : Z) (args : exprs).

(** ** Compile-time evaluation of an operator on two constants,
    compiler_expression_perform_KK_operation
    (src/compiler/compiler_expression_optimize.cpp:185-409).
    It is kept abstract here ([FoldErr] is a compile error, [FoldUB] undefined
    behaviour of the compiler; neither yields byte code); [FoldModel]
    defines it. *)
Inductive fold := FoldErr | FoldUB | FoldK (k : const).

Section Compile.
Variable foldk : bop -> const -> const -> fold.

(** compiler_expression_load_const_byte_code_to_instruction_property,
    src/compiler/compiler_expression_optimize.cpp:102-123. *)
Definition k_property (k : const) : Z :=
  match k with
  | KInt _ => P_KINT
  | KBool _ => P_KBOOL
  | KFloat _ => P_KFLOAT
  | KStr _ => P_KSTRING
  end.

(** Instruction::isConstant, src/core/Instruction.cpp:66-68. *)
Definition is_const (i : instr) : option const :=
  match i with LoadK k => Some k | _ => None end.

(** compiler_expression_get_register,
    src/compiler/compiler_expression_optimize.cpp:125-181: locals and member
    variables of [this] whose index is below ZS_MAX_REGISTER_LENGTH.  Result:
    the index and the access flag. *)
Definition get_register (i : instr) : option (Z * Z) :=
  match i with
  | LoadVar (Local n) => if 128 <=? Z.of_nat n then None else Some (Z.of_nat n, 0)
  | LoadVar (This n) => if 128 <=? Z.of_nat n then None else Some (Z.of_nat n, P_THIS_VAR)
  | _ => None
  end.

Inductive opt := OptErr | OptNone | OptTo (c : code).

(** compiler_expression_optimize,
    src/compiler/compiler_expression_optimize.cpp:411-566, on the whole
    instruction vector: either no change, or the last one or two instructions
    are removed and one is pushed. *)
Definition optimize (o : bop) (c : code) : opt :=
  match rev c with
  | i2 :: i1 :: rest =>
      match o with
      | O_INST =>
          (* lines 441-459: value_op2 of the last instruction, whatever it is *)
          let t := match i2 with
                   | LoadType t => t
                   | LoadK (KInt z) => z
                   | LoadK (KBool b) => if b then 1 else 0
                   | LoadFun f => f
                   | _ => -1
                   end in
          OptTo (rev (i1 :: rest) ++ [Inst t])
      | _ =>
          match is_const i1, is_const i2 with
          | Some k1, Some k2 =>
              match foldk o k1 k2 with
              | FoldErr | FoldUB => OptErr
              | FoldK k => OptTo (rev rest ++ [LoadK k])
              end
          | K1, K2 =>
              match get_register i1, get_register i2 with
              | Some (r1, f1), Some (r2, f2) =>
                  OptTo (rev rest ++
                    [Bin o r1 (Raw (Z.lor (Z.shiftl (Z.land r2 255) 16) f2)) (Z.lor P_ILOAD_RR f1)])
              | Some (r1, f1), None =>
                  match K2 with
                  | Some k2 =>
                      OptTo (rev rest ++
                        [Bin o r1 (Cst k2) (Z.lor (Z.lor P_ILOAD_RK f1) (k_property k2))])
                  | None => OptNone
                  end
              | None, Some (r2, f2) =>
                  match K1 with
                  | Some k1 =>
                      OptTo (rev rest ++
                        [Bin o r2 (Cst k1) (Z.lor (Z.lor P_ILOAD_KR f2) (k_property k1))])
                  | None =>
                      OptTo (rev (i1 :: rest) ++ [Bin o r2 (Raw (-1)) (Z.lor P_ILOAD_R f2)])
                  end
              | None, None =>
                  (* lines 516-529: the property is looked up with the byte code
                     of i1, which is no constant here, so nothing is done *)
                  OptNone
              end
          end
      end
  | _ => OptNone
  end.

(** compiler_two_last_instruction_are_constants,
    src/compiler/compiler_expression_byte_code.cpp:55-69. *)
Definition two_last_const (c : code) : bool :=
  match rev c with
  | i2 :: i1 :: _ =>
      match is_const i1, is_const i2 with Some _, Some _ => true | _, _ => false end
  | _ => false
  end.

(** The scan of src/compiler/compiler_expression_byte_code.cpp:102-114: index of
    the last operator of the lowest group ([<=] against the best so far, which
    starts at ZS_PREFERENCE_OPERATOR_GROUP_MAX = 8). *)
Fixpoint find_split {A} (i : nat) (best : Z) (found : option nat) (tl : list (bop * A))
  : option nat :=
  match tl with
  | [] => found
  | (o, _) :: tl' =>
      if group o <=? best then find_split (S i) (group o) (Some i) tl'
      else find_split (S i) best found tl'
  end.

(** compiler_expression_tokens_to_byte_code,
    src/compiler/compiler_expression_byte_code.cpp:71-205.  [acc] is
    compiler_instructions, the tokens idx_start..idx_end are [hd] and [tl];
    [fuel] bounds the recursion depth (length of [tl] + 1 suffices). *)
Fixpoint ctoks (fuel : nat) (acc : code) (hd : code) (tl : list (bop * code)) : option code :=
  match fuel with
  | O => None
  | S fuel' =>
      match tl with
      | [] => Some (acc ++ hd)
      | _ =>
          match find_split 0 8 None tl with
          | None => None
          | Some k =>
              match nth_error tl k with
              | None => None
              | Some (o, hd2) =>
                  match ctoks fuel' acc hd (firstn k tl) with
                  | None => None
                  | Some acc1 =>
                      let plain :=
                        match ctoks fuel' acc1 hd2 (skipn (S k) tl) with
                        | None => None
                        | Some acc2 =>
                            match optimize o acc2 with
                            | OptErr => None
                            | OptNone => Some (acc2 ++ [Bin o (-1) (Raw (-1)) 0])
                            | OptTo acc3 => Some acc3
                            end
                        end in
                      if two_last_const acc1 then plain
                      else match o with
                           | O_LAND => ctoks fuel' (acc1 ++ [Jnt NextOr (-1)]) hd2 (skipn (S k) tl)
                           | O_LOR => ctoks fuel' (acc1 ++ [Jt LogicOk (-1)]) hd2 (skipn (S k) tl)
                           | _ => plain
                           end
                  end
              end
          end
      end
  end.

(** First unresolved JT at or after a position,
    src/compiler/compiler_expression_byte_code.cpp:415-424. *)
Fixpoint next_or (c : code) : option Z :=
  match c with
  | [] => None
  | Jt LogicOk _ :: _ => Some 0
  | _ :: c' => match next_or c' with Some d => Some (d + 1) | None => None end
  end.

(** The patch pass, src/compiler/compiler_expression_byte_code.cpp:408-441;
    [i] is the index of the first instruction of [c], [t] and [f] are
    idx_jmp_load_true_value and idx_jmp_load_false_value. *)
Fixpoint patch (t f : Z) (i : Z) (c : code) : code :=
  match c with
  | [] => []
  | Jnt NextOr _ :: c' =>
      (match next_or c' with
       | Some d => Jnt NoMark (d + 2)
       | None => Jnt NoMark (f - i)
       end) :: patch t f (i + 1) c'
  | Jt LogicOk _ :: c' => Jt NoMark (t - i) :: patch t f (i + 1) c'
  | x :: c' => x :: patch t f (i + 1) c'
  end.

(** True/false loads after an expression with logical operators,
    src/compiler/compiler_expression_byte_code.cpp:347-441.  [start] is
    idx_start_instructions; the two flags say whether any JT, any JNT was
    inserted (logical_or_jt.length() > 0, logical_and_jnt.length() > 0). *)
Definition logic_end (any_or any_and : bool) (start : nat) (c : code) : code :=
  if any_or || any_and then
    let n := Z.of_nat (length c) in
    let tail :=
      if any_or && any_and then
        [Jmp NoMark 4; LoadK (KBool true); Jmp NoMark 2; LoadK (KBool false)]
      else if any_or then [Jmp NoMark 2; LoadK (KBool true)]
      else [Jmp NoMark 2; LoadK (KBool false)] in
    let t := if any_or then n + 1 else n in
    let f := if any_and then (if any_or then n + 3 else n + 1) else n in
    firstn start c ++ patch t f (Z.of_nat start) (skipn start c ++ tail)
  else c.

(** Number of JT/JNT placeholders in a vector: [logical_or_jt] and
    [logical_and_jnt] collect exactly the inserted ones. *)
Definition any_mark (m : mark) (c : code) : bool :=
  existsb (fun i => match i, m with
                    | Jnt NextOr _, NextOr => true
                    | Jt LogicOk _, LogicOk => true
                    | _, _ => false
                    end) c.

(** A call argument that is one variable load is passed as a reference
    (src/compiler/compiler_expression_token_symbol.cpp:451-467). *)
Definition as_arg (c : code) : code :=
  match c with
  | [LoadVar (Local n)] => [PushVar (Local n)]
  | [LoadVar (Global n)] => [PushVar (Global n)]
  | _ => c
  end.

Fixpoint length_es (es : exprs) : nat :=
  match es with ENil => O | ECons _ es' => S (length_es es') end.

(** compiler_expression_to_byte_code
    (src/compiler/compiler_expression_byte_code.cpp:216-562) and the operand
    part of compiler_expression_token_symbol
    (src/compiler/compiler_expression_token_symbol.cpp:57-888).  [acc] is
    dst_instructions; [None] is a compile error. *)
Fixpoint comp_operand (a : operand) : option code :=
  match a with
  | AConst k => Some [LoadK k]
  | AUndef => Some [LoadUndef]
  | ANull => Some [LoadNull]
  | AFun f => Some [LoadFun f]
  | AType t => Some [LoadType t]
  | AVar x => Some [LoadVar x]
  | AIncDec post inc t =>
      match comp_target t with
      | Some c => Some (c ++ [IncDec post inc false])
      | None => None
      end
  | APrim p args =>
      match comp_args args with
      | Some c => Some (c ++ [Prim p (length_es args) false])
      | None => None
      end
  | AParen e => comp_expr [] e
  | AUn u a => match comp_operand a with Some c => Some (c ++ [Un u]) | None => None end
  end
with comp_expr (acc : code) (e : expr) : option code :=
  match e with
  | Expr ts hd tl tn =>
      match comp_targets ts with
      | None => None
      | Some cts =>
      match comp_operand hd with
      | None => None
      | Some chd =>
      match comp_ops tl with
      | None => None
      | Some ctl =>
      match ctoks (S (length ctl)) acc chd ctl with
      | None => None
      | Some c1 =>
          let new := skipn (length acc) c1 in
          let c2 := logic_end (any_mark LogicOk new) (any_mark NextOr new) (length acc) c1 in
          match comp_tern c2 tn with
          | None => None
          | Some c3 => Some (c3 ++ cts)
          end
      end end end end
  end
with comp_args (es : exprs) : option code :=
  match es with
  | ENil => Some []
  | ECons e es' =>
      match comp_expr [] e with
      | None => None
      | Some c =>
          match comp_args es' with
          | None => None
          | Some cs => Some (as_arg c ++ cs)
          end
      end
  end
with comp_ops (os : ops) : option (list (bop * code)) :=
  match os with
  | ONil => Some []
  | OCons o a os' =>
      match comp_operand a with
      | None => None
      | Some c =>
          match comp_ops os' with
          | None => None
          | Some cs => Some ((o, c) :: cs)
          end
      end
  end
with comp_tern (acc : code) (tn : tern) : option code :=
  (* lines 446-526 *)
  match tn with
  | TNone => Some acc
  | TSome e1 e2 =>
      let jnt_start := length acc in
      match comp_expr (acc ++ [Jnt NoMark (-1)]) e1 with
      | None => None
      | Some c1 =>
          let jmp_start := length c1 in
          match comp_expr (c1 ++ [Jmp NoMark (-1)]) e2 with
          | None => None
          | Some c2 =>
              (* value_op2 of the two jumps is set afterwards *)
              let body_if := Z.of_nat jmp_start + 1 - Z.of_nat jnt_start in
              let body_else := Z.of_nat (length c2) - Z.of_nat jmp_start in
              Some (firstn jnt_start c2 ++ [Jnt NoMark body_if]
                    ++ firstn (jmp_start - jnt_start - 1) (skipn (jnt_start + 1) c2)
                    ++ [Jmp NoMark body_else]
                    ++ skipn (jmp_start + 1) c2)
          end
      end
  end
with comp_targets (ts : targets) : option code :=
  (* lines 236-331 and 531-540: the loaders are collected from the last target
     to the first and emitted in the reverse of that order *)
  match ts with
  | TgNil => Some []
  | TgCons t a ts' =>
      match comp_target t with
      | None => None
      | Some c =>
          match comp_targets ts' with
          | None => None
          | Some cs => Some (c ++ [Asg a false] ++ cs)
          end
      end
  end
with comp_target (t : target) : option code :=
  match t with
  | TVar x => Some [PushVar x]
  | TPrim p args =>
      match comp_args args with
      | Some c => Some (c ++ [LPrim p (length_es args)])
      | None => None
      end
  end.

End Compile.
