(** * The stack requirement of a function, computed when its code is finished.

    Modelled sources: src/core/Instruction.cpp:90-243
    (instruction_num_required_stack), src/compiler/compiler.cpp:545-754 (the
    accumulation in compiler_pop_and_compile_function) and the check of
    src/vm/vm_script_function.cpp:77-80.

    The instructions are those of [ExprModel].  [Prim] and [LPrim] stand for
    instructions of several kinds, so what is counted for them is a parameter:
    INSTRUCTION_GET_RETURN_COUNT - INSTRUCTION_GET_PARAMETER_COUNT for the calls,
    1 for LOAD_ARRAY_ITEM, PUSH_STK_ARRAY_ITEM and PUSH_STK_OBJECT_ITEM, 0 for
    LOAD_OBJECT_ITEM.

    Not modelled: what a called function puts on the stack above the operands of
    its caller (script functions make their own check, native ones none), and
    the object and array literals and member calls, which are several
    instructions with operands between them. *)
From Coq Require Import ZArith List Bool Lia.
From Verif Require Import Base FloatModel ExprModel VmModel.
Import ListNotations.
Local Open Scope Z_scope.

Section Need.
(** What is counted for [Prim p n] and [LPrim p n]. *)
Variable nprim nlprim : Z -> nat -> Z.

(** instruction_num_required_stack, src/core/Instruction.cpp:90-243: lines
    93-114 for the operand forms (ILOAD), then by byte code. *)
Definition need (i : instr) : Z :=
  match i with
  | LoadK _ | LoadUndef | LoadNull | LoadFun _ | LoadType _ | LoadVar _ | PushVar _ => 1
  | Bin o _ v2 props =>
      let m := Z.land props P_ILOAD in
      if m =? 0 then match o with O_INST | O_IN => 1 | _ => -1 end
      else if m =? P_ILOAD_RR then
        match v2 with
        | Raw z =>
            if negb (Z.land props P_THIS_VAR =? 0) && negb (Z.land z P_THIS_VAR =? 0) then 2 else 1
        | Cst _ => 1
        end
      else 1
  | Un U_TYPEOF => 1
  | Un _ => 0
  | Inst _ => 1
  | IncDec _ _ _ => 0
  | Asg _ _ => -1                       (* STORE of one value, op-assignments *)
  | Store n _ => - Z.of_nat n
  | Prim p n _ => nprim p n
  | LPrim p n => nlprim p n
  | ItInit => 0
  | ItLoad _ => 1                       (* LOAD_OBJECT_ITEM, CALLING_FUNCTION *)
  | ItCall n _ => Z.of_nat n - 1        (* MEMBER_CALL without arguments *)
  | Jmp _ _ | JmpCase _ => 0
  | Jnt _ _ | Jt _ _ | JeCase _ => -1
  | Reset | PushScope _ | PopScope | Ret => 0
  | EndFun => 0                         (* the extra instruction is not counted *)
  end.

(** The instructions after which the sum starts again from 0,
    src/compiler/compiler.cpp:657-663. *)
Definition resets (i : instr) : bool :=
  match i with
  | Reset | Ret | ItInit => true
  | IncDec _ _ r | Asg _ r | Store _ r | Prim _ _ r | ItCall _ r => r
  | _ => false
  end.

(** The loop of src/compiler/compiler.cpp:577-710: sum_stk_load_stk and
    max_acc_stk_load. *)
Fixpoint count (sum mx : Z) (c : code) : Z * Z :=
  match c with
  | [] => (sum, mx)
  | i :: c' =>
      let sum1 := sum + need i in
      count (if resets i then 0 else sum1) (Z.max mx sum1) c'
  end.

(** min_code_stack_needed, src/compiler/compiler.cpp:693 and 748-751. *)
Definition min_code_stack (c : code) : Z :=
  let (sum, mx) := count 0 0 c in if mx <? sum then sum else mx.

(** The check on entry, src/vm/vm_script_function.cpp:77-80: [start] is
    stk_start - vm_stack, [size] is vm_stack_size. *)
Definition entry_ok (start size : Z) (c : code) : bool :=
  negb (size <=? start + min_code_stack c).

End Need.
