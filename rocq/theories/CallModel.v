(** Model of calling a script function: argument passing and result delivery of vm_call
    (/repo/src/vm/vm_call.cpp:80-647), the packing of the counts in a call instruction
    (/repo/src/core/Instruction.h:41-59), and entry to and exit from
    vm_execute_script_function (/repo/src/vm/vm_script_function.cpp:43-98, 679-697).

    Not modelled here: which function is called (member lookup, native overload choice,
    native functions), `this`, reference counts of the objects passed (ShareModel.v). *)
From Coq Require Import List ZArith Bool Lia.
From Verif Require Import Base StringModel.
Import ListNotations.
Open Scope Z_scope.

(** ** Stack elements (src/core/StackElement.h) as far as argument passing looks at them:
    plain values, objects, strings (constant ones are not shared objects), a pointer to a
    variable (STACK_ELEMENT_PROPERTY_PTR_STK), a container slot, a VarRefObject (what a
    by-reference parameter holds), an array. *)
Inductive elem : Type :=
| EUndef
| ENum (z : Z)
| EObj (o : nat)
| EStr (cst : bool) (s : list Z)
| EPtr (l : nat)
| ESlot (o : nat)
| ERef (l : nat)
| EArr (es : list elem).

(** A default value (FunctionParam::default_param_value): a constant, or a function called to
    compute it, with the outcome of that call ([None]: it stopped with an error). *)
Inductive dflt : Type := DVal (e : elem) | DCall (r : option elem).

(** FunctionParam (src/core/function/FunctionParam.h): by reference, rest parameter `...x`,
    default. *)
Record param : Type := { p_ref : bool; p_rest : bool; p_def : dflt }.

(** ** Argument passing *)

(** One argument (vm_call.cpp:308-360); [None]: "Argument by reference has to be variable". *)
Definition conv (mem : nat -> elem) (p : param) (a : elem) : option elem :=
  if p_ref p then
    match a with
    | ERef l => Some (ERef l)
    | EPtr l => Some (ERef l)
    | _ => None
    end
  else
    let a1 := match a with EPtr l => mem l | _ => a end in
    let a2 := match a1 with ESlot o => EObj o | _ => a1 end in
    let a3 := match a2 with ERef l => mem l | _ => a2 end in
    Some (match a3 with EStr true s => EStr false s | _ => a3 end).

(** The arguments gathered by a rest parameter after the first (vm_call.cpp:361-363). *)
Fixpoint gather (mem : nat -> elem) (p : param) (args : list elem) : res (list elem) :=
  match args with
  | [] => Ok []
  | a :: args' =>
      match conv mem p a with
      | None => Thr
      | Some v => do vs <- gather mem p args'; Ok (v :: vs)
      end
  end.

(** The loop PASS ARGS (vm_call.cpp:306-391): [i] the index, [eff] = effective_args, [ps] what
    sf_param points to. Result: the stack from the first argument on. *)
Fixpoint pass (mem : nat -> elem) (i eff : nat) (ps : list param) (args : list elem) {struct args}
  : res (list elem) :=
  match args with
  | [] => Ok []
  | a :: args' =>
      match ps with
      | [] => UB
      | p :: ps' =>
          match conv mem p a with
          | None => Thr
          | Some v =>
              if p_rest p then
                do vs <- gather mem p args'; Ok (EArr (v :: vs) :: vs)
              else if (eff <=? S i)%nat then Ok (v :: args')
              else do r <- pass mem (S i) eff ps' args'; Ok (v :: r)
          end
      end
  end.

(** Defaults of the parameters without argument (vm_call.cpp:397-427). *)
Fixpoint defaults (ps : list param) : res (list elem) :=
  match ps with
  | [] => Ok []
  | p :: ps' =>
      match p_def p with
      | DVal e => do r <- defaults ps'; Ok (e :: r)
      | DCall (Some e) => do r <- defaults ps'; Ok (e :: r)
      | DCall None => Thr
      end
  end.

(** vm_call.cpp:296-427 and the initialisation of the other local variables
    (vm_script_function.cpp:93-97): the local variables the function starts with. *)
Definition bind_args (mem : nat -> elem) (params : list param) (nlocals : nat) (args : list elem)
  : res (list elem) :=
  do seg <- (if (0 <? length args)%nat && (0 <? length params)%nat
             then pass mem 0 (if (length args <? length params)%nat then length args else length params)
                       params args
             else Ok args);
  do ds <- defaults (skipn (length args) params);
  Ok (firstn (length params) (seg ++ ds) ++ repeat EUndef (nlocals - length params)%nat).

(** ** Delivery of the results (vm_call.cpp:603-637). [seg] is the stack from the first local
    variable of the callee on, [nl] the number of its local variables, [r] the number of values
    the call instruction asks for. *)
(** The swap loop, lines 621-625, on the array [v] of [n] elements. *)
Fixpoint swaps (k : nat) (i n : Z) (v : list elem) : option (list elem) :=
  match k with
  | O => Some v
  | S k' =>
      match rd v (n - i - 1), rd v i with
      | Some tmp, Some x =>
          match wr v (n - i - 1) x with
          | Some v1 => match wr v1 i tmp with
                       | Some v2 => swaps k' (i + 1) n v2
                       | None => None
                       end
          | None => None
          end
      | _, _ => None
      end
  end.
Definition deliver (nl r : nat) (seg : list elem) : option (list elem) :=
  let n := Z.of_nat (length seg) - Z.of_nat nl in
  (* lines 615-618: pushes from the current top; n may be negative *)
  let seg1 := seg ++ repeat EUndef (Z.to_nat (Z.of_nat r - n)) in
  let n1 := Z.max n (Z.of_nat r) in
  let v := skipn nl seg1 in
  match swaps (Z.to_nat (n1 / 2)) 0 n1 v with
  | Some v' => if (length v' <? r)%nat then None else Some (firstn r v')
  | None => None
  end.
(** What the callee leaves from its first local variable on: RET keeps the local variables, set
    to undefined by vm_pop_scope, and the values pushed (vm_script_function.cpp:360-397, 687-696);
    the end of the code resets the stack to the first local (679-683). *)
Inductive ending : Type := RetVals (vs : list elem) | EndOfCode.
Definition left (nl : nat) (e : ending) : list elem :=
  match e with RetVals vs => repeat EUndef nl ++ vs | EndOfCode => [] end.
(** The caller's stack after the call: [k] values below the arguments belong to the call itself
    (function value, object; sf_call_stk_start_function_object). *)
Definition after_call (below : list elem) (k nl r : nat) (e : ending) : option (list elem) :=
  match deliver nl r (left nl e) with
  | Some vs => Some (firstn (length below - k) below ++ vs)
  | None => None
  end.

(** ** Counts in one byte (Instruction.h:41-59) *)
Definition op1_of (ret par : Z) : Z := Z.lor (Z.shiftl (Z.land ret 15) 4) (Z.land par 15).
Definition get_param (op1 : Z) : Z := Z.land op1 15.
Definition get_ret (op1 : Z) : Z := Z.shiftr (Z.land op1 240) 4.
Definition set_ret (op1 ret : Z) : Z := Z.lor (Z.land op1 15) (Z.shiftl (Z.land ret 15) 4).
Definition set_param (op1 par : Z) : Z := Z.lor (Z.land op1 240) (Z.land par 15).
(** INSTRUCTION_VALUE_OP1_JMP_BREAK, _CONTINUE (Instruction.h:15-20) and the test of
    link_loop_break_continues on every instruction of a loop (compiler_keyword_loop.cpp:23-37):
    new value_op1 and value_op2; [e] end of the loop's code, [k] continue target, [i] position. *)
Definition op1_break : Z := 250.
Definition op1_continue : Z := 249.
Definition op1_none : Z := 255.
Definition relink (e k i : Z) (op : Z * Z) : Z * Z :=
  if fst op =? op1_break then (op1_none, e - i - 1)
  else if fst op =? op1_continue then (op1_none, k - i)
  else op.

(** ** Entry and exit of activations. An activation has [nl] local variables, needs [need]
    operand slots (min_code_stack_needed), performs the calls [body], each starting [off] slots
    above the caller's operand base, then ends, with an error or not. *)
Inductive act : Type := Act (nl need : Z) (body : list (Z * act)) (err : bool).

(** ZS_VM_FUNCTION_CALL_MAX (vm.h:14); the stack size is a parameter (vm.h:13: 256). *)
Definition call_max : Z := 100.

(** [cur] = vm_current_scope_function - vm_scope_function, [base] = _stk_local_var - vm_stack.
    Result: the new [cur] and whether vm_error is set. Writing outside the value stack or using
    a frame outside vm_scope_function[0..99] is [UB]. When a call fails the caller returns at once
    without leaving its own frame (lines 487-495); vm_do_stack_dump resets [cur] afterwards
    (vm.cpp:31-49). That operands stay within [need] slots is C38. *)
Fixpoint activate (size cur base : Z) (a : act) : res (Z * bool) :=
  match a with
  | Act nl need body err =>
      let start := base + nl in
      let leave (c : Z) (e : bool) : res (Z * bool) :=   (* lines 679-697 *)
        if (c <? 1) || (call_max <? c) then UB else Ok (c - 1, e) in
      if call_max <=? cur then Ok (cur, true)            (* lines 72-75 *)
      else if size <=? start + need then                 (* lines 79-82: goto lbl_exit_function *)
        if size <=? start then UB else leave cur true
      else
        if cur <? 0 then UB else
        (fix calls (c : Z) (b : list (Z * act)) : res (Z * bool) :=
           match b with
           | [] => leave c err
           | (off, a1) :: b' =>
               match activate size c (start + off) a1 with
               | Ok (c1, true) => Ok (c1, true)
               | Ok (c1, false) => calls c1 b'
               | Thr => Thr | UB => UB | Loop => Loop
               end
           end) (cur + 1) body
  end.
