(** * Compile-time evaluation of an operator on two constants.

    Modelled source: compiler_expression_perform_KK_operation,
    src/compiler/compiler_expression_optimize.cpp:185-409 with the macros of
    lines 11-97, and the constant getters of src/core/Instruction.cpp:27-88.
    The run-time counterpart ([run_op]) dispatches to the operators of
    [ValueModel] and adds the string cases of [in]
    (vm_perform_in_operator, src/vm/vm_iterator.cpp:130-175). *)
From Coq Require Import ZArith List Bool Lia.
From Coq Require Import SpecFloat.
From Verif Require Import Base StringModel FloatModel ExprModel ValueModel.
Import ListNotations.
Local Open Scope Z_scope.

Section Fold.
(** Integer::toString and Float::toString (the text of a number). *)
Variable itext : Z -> list Z.
Variable ftext : f64 -> list Z.
(** strchr(str, ch) != NULL and String::contains; the compiler and the virtual
    machine call the same functions. *)
Variable has_char : list Z -> Z -> bool.
Variable has_str : list Z -> list Z -> bool.

(** ZS_READ_INTPTR_FLOAT(value_op2) of a LOAD_FLOAT instruction: value_op2 holds
    the bits of the number. *)
Definition rd (f : f64) : f64 := dec (enc f).

(** Instruction::value_op2 of a constant that is not a string. *)
Definition raw2 (k : const) : option Z :=
  match k with
  | KInt z => Some z
  | KBool b => Some (Z.b2z b)
  | KFloat f => Some (enc f)
  | KStr _ => None
  end.

(** A C string argument of printf: up to the first NUL. *)
Fixpoint c_str (s : list Z) : list Z :=
  match s with [] => [] | c :: r => if c =? 0 then [] else c :: c_str r end.

Definition true_text : list Z := [116; 114; 117; 101].
Definition false_text : list Z := [102; 97; 108; 115; 101].

(** The argument printed for one side of [+]: getConstantString for a string,
    getConstantValueOp2ToString otherwise (Instruction.cpp:66-88). *)
Definition side_text (k : const) : list Z :=
  match k with
  | KStr s => s
  | KBool b => if b then true_text else false_text
  | KInt z => itext z
  | KFloat f => ftext (rd f)
  end.

(** String::format("%s%s", a, b), src/base/String.cpp:27-36: vsprintf without
    bound into a local array of ZS_MAX_STR_BUFFER = 4096 bytes
    (src/base/Common.h:44); writing beyond it is undefined behaviour.  The result is registered
    as a constant through StringScriptObject::set (compiler_expression_optimize.cpp:392-399,
    ScriptEngine.cpp:1098-1102), which reads escapes again. *)
Definition max_str_buffer : Z := 4096.
Definition format2 (a b : list Z) : fold :=
  let r := c_str a ++ c_str b in
  if zlen r <? max_str_buffer then FoldK (KStr (set_text r)) else FoldUB.

Definition fold_int (z : Z) : fold := if in64 z then FoldK (KInt z) else FoldUB.

(** ZS_EVAL_CONSTANT_ARITHMETIC_OPERATION, lines 11-37. *)
Definition fold_arith (iop : Z -> Z -> Z) (fop : f64 -> f64 -> f64) (k1 k2 : const) : fold :=
  match k1, k2 with
  | KInt a, KInt b => fold_int (iop a b)
  | KInt a, KFloat b => FoldK (KFloat (fop (of_int a) (rd b)))
  | KFloat a, KInt b => FoldK (KFloat (fop (rd a) (of_int b)))
  | KFloat a, KFloat b => FoldK (KFloat (fop (rd a) (rd b)))
  | _, _ => FoldErr
  end.

(** BYTE_CODE_DIV and BYTE_CODE_MOD, lines 234-304: the zero test looks at the
    raw bits; in the INT, FLOAT case (lines 251-254, 286-289) the bits of the
    integer are read as a float and the bits of the float as an integer. *)
Definition fold_divmod (fop : f64 -> f64 -> f64) (k1 k2 : const) : fold :=
  if match raw2 k2 with Some z => z =? 0 | None => false end then FoldErr else
  match k1, k2 with
  | KInt a, KInt b => FoldK (KFloat (fop (of_int a) (of_int b)))
  | KFloat a, KInt b => FoldK (KFloat (fop (rd a) (of_int b)))
  | KInt a, KFloat b => FoldK (KFloat (fop (dec a) (of_int (enc b))))
  | KFloat a, KFloat b => FoldK (KFloat (fop (rd a) (rd b)))
  | _, _ => FoldErr
  end.

(** ZS_EVAL_CONSTANT_COMPARE_OPERATION, lines 40-70.  In the INT, FLOAT case the
    comparison is stored in result_op_float and result_op_bool keeps its initial
    value false.  Strings are compared with a quote (34) added on both sides. *)
Definition quoted (s : list Z) : list Z := 34 :: s ++ [34].
Definition fold_cmp (c : cmp) (k1 k2 : const) : fold :=
  match k1, k2 with
  | KInt a, KInt b => FoldK (KBool (cmpZ c a b))
  | KBool a, KBool b => FoldK (KBool (cmpZ c (Z.b2z a) (Z.b2z b)))
  | KInt _, KFloat _ => FoldK (KBool false)
  | KFloat a, KInt b => FoldK (KBool (cmpF c (rd a) (of_int b)))
  | KFloat a, KFloat b => FoldK (KBool (cmpF c (rd a) (rd b)))
  | KStr a, KStr b => FoldK (KBool (cmp_strings c (quoted a) (quoted b)))
  | _, _ => FoldErr
  end.

(** ZS_EVAL_CONSTANT_BINARY_OPERATION, lines 72-83. *)
Definition fold_bits (o : bop) (k1 k2 : const) : fold :=
  match k1, k2 with
  | KInt a, KInt b =>
      match bopZ o a b with Some z => fold_int z | None => FoldUB end
  | _, _ => FoldErr
  end.

(** ZS_EVAL_CONSTANT_LOGIC_OPERATION, lines 85-97. *)
Definition fold_logic (f : bool -> bool -> bool) (k1 k2 : const) : fold :=
  match k1, k2 with
  | KBool a, KBool b => FoldK (KBool (f a b))
  | _, _ => FoldErr
  end.

(** The switch of lines 207-370. *)
Definition foldk (o : ExprModel.bop) (k1 k2 : const) : fold :=
  match o with
  | O_ADD =>
      match k1, k2 with
      | KStr _, _ | _, KStr _ => format2 (side_text k1) (side_text k2)
      | _, _ => fold_arith Z.add fadd k1 k2
      end
  | O_SUB => fold_arith Z.sub fsub k1 k2
  | O_MUL => fold_arith Z.mul fmul k1 k2
  | O_DIV => fold_divmod fdiv k1 k2
  | O_MOD => fold_divmod fmod k1 k2
  | O_AND => fold_bits BAnd k1 k2
  | O_OR => fold_bits BOr k1 k2
  | O_XOR => fold_bits BXor k1 k2
  | O_SHL => fold_bits BShl k1 k2
  | O_SHR => fold_bits BShr k1 k2
  | O_LAND => fold_logic andb k1 k2
  | O_LOR => fold_logic orb k1 k2
  | O_LT => fold_cmp CLt k1 k2
  | O_GT => fold_cmp CGt k1 k2
  | O_GTE => fold_cmp CGe k1 k2
  | O_LTE => fold_cmp CLe k1 k2
  | O_EQ => fold_cmp CEq k1 k2
  | O_NE => fold_cmp CNe k1 k2
  | O_IN =>
      match k1, k2 with
      | KInt z, KStr s => FoldK (KBool (has_char s z))
      | KStr p, KStr s => FoldK (KBool (has_str s p))
      | _, _ => FoldErr
      end
  | O_INST => FoldErr
  end.

(** ** Run time. *)
Section Run.
Variable h : heap.
Variable text : stk -> list Z.

(** vm_perform_in_operator, src/vm/vm_iterator.cpp:130-205, when the right
    operand is a string, and the error for a right operand that is not an
    object; other containers are not modelled here ([UBd] marks them). *)
Definition op_in (a b : stk) : opres :=
  if has (props b) P_OBJECT then
    match h (val b) with
    | Some (OStr s) =>
        if has (props a) P_INT then push_bool (has_char s (val a))
        else match obj_of h a with
             | Some (Some (OStr p)) => push_bool (has_str s p)
             | Some _ => Fail
             | None => UBd
             end
    | _ => UBd
    end
  else Fail.

(** The operator instructions of vm_execute_script_function,
    src/vm/vm_script_function.cpp:126-330. *)
Definition run_op (o : ExprModel.bop) (a b : stk) : opres :=
  match o with
  | O_ADD => op_add h text a b
  | O_SUB => op_sub h text a b
  | O_MUL => op_mul h text a b
  | O_DIV => op_div h text a b
  | O_MOD => op_mod h text a b
  | O_AND => op_bits h text BAnd a b
  | O_OR => op_bits h text BOr a b
  | O_XOR => op_bits h text BXor a b
  | O_SHL => op_bits h text BShl a b
  | O_SHR => op_bits h text BShr a b
  | O_LAND => op_logic andb a b
  | O_LOR => op_logic orb a b
  | O_LT => op_cmp h text CLt a b
  | O_GT => op_cmp h text CGt a b
  | O_GTE => op_cmp h text CGe a b
  | O_LTE => op_cmp h text CLe a b
  | O_EQ => op_cmp h text CEq a b
  | O_NE => op_cmp h text CNe a b
  | O_IN => op_in a b
  | O_INST => Fail
  end.
End Run.
End Fold.
