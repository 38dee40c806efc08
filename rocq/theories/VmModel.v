(** * The instruction loop of the virtual machine, for one activation of one
      function.

    Modelled source: src/vm/vm_script_function.cpp (vm_execute_script_function,
    lines 108-688) with src/vm/vm_pop_stk.h.  The behaviour of values and of the
    world (variables, heap, output, called functions) is the parameter [Sem]; the
    machine contributes the program counter, the operand stack between
    stk_start and vm_stk_current, and the stack of open scope blocks. *)
From Coq Require Import ZArith List Bool Lia.
From Verif Require Import Base FloatModel ExprModel.
Import ListNotations.
Local Open Scope Z_scope.

(** Result of something that may stop the script with an error; the world is
    the one at that moment. *)
Inductive ev (W A : Type) := EOk (a : A) (w : W) | EErr (w : W).
Arguments EOk {W A} a w.
Arguments EErr {W A} w.

Definition ebind {W A B} (m : ev W A) (f : A -> W -> ev W B) : ev W B :=
  match m with EOk a w => f a w | EErr w => EErr w end.

(** The behaviour of values.  [V]: values; [W]: worlds; [L]: references
    (STACK_ELEMENT_PROPERTY_PTR_STK and container slots). *)
Record Sem := {
  V : Type; W : Type; L : Type;
  kval : const -> V;                     (* LOAD_INT/FLOAT/BOOL/STRING *)
  undefv : V; nullv : V; funv : Z -> V; typev : Z -> V;
  vbool : V -> option bool;              (* STACK_ELEMENT_PROPERTY_BOOL, value != 0 *)
  vget : W -> var -> V;
  lvar : var -> L;
  binop : bop -> V -> V -> W -> ev W V;
  unop : uop -> V -> W -> ev W V;
  instof : V -> Z -> W -> ev W V;
  incdec : bool -> bool -> L -> W -> ev W V;
  assign : asop -> L -> V -> W -> ev W V;
  prim : Z -> list (V + L) -> W -> ev W V;
  lprim : Z -> list (V + L) -> W -> ev W L;
  caseeq : V -> V -> W -> ev W bool;
  itinit : V -> L -> W -> ev W unit;     (* vm_iterator_init: container, iterator variable *)
  itload : itfun -> V -> W -> ev W V;    (* member function of an iterator *)
  itcall : nat -> V -> W -> ev W (list V);  (* its call: the values put on the stack, lowest first *)
  popsc : Z -> W -> W                    (* vm_pop_scope: the scope's locals become undefined *)
}.

Section Machine.
Variable S : Sem.

Definition slot := (V S + L S)%type.

(** Activation state: instruction_it, the operands (top first), the world, the
    open scope blocks (innermost first). *)
Record st := St { pc : nat; sk : list slot; wd : W S; scs : list Z }.

(** [Next]: the loop continues; [Failed]: the script stops with an error;
    [Done]: the activation ends with the given operands; [Stuck]: the
    instruction finds operands it does not expect (undefined behaviour in C++,
    never reached by compiled code). *)
Inductive sres := Next (s : st) | Failed (w : W S) | Done (w : W S) (vals : list slot) | Stuck.

(** VM_LOAD_STK_FROM_INSTRUCTION, src/vm/vm_pop_stk.h:12-26. *)
Definition reg_var (off props : Z) : var :=
  if Z.land props P_THIS_VAR =? 0 then Local (Z.to_nat off) else This (Z.to_nat off).

(** INSTRUCTION_CONST_TO_STK_CONST_VALUE/_PROPERTY, src/core/Instruction.h:29-40:
    the type comes from the properties. *)
Definition imm_const (v2 : op2) (props : Z) : option const :=
  match v2 with
  | Cst (KInt z) => if Z.land props P_KINT =? 0 then None else Some (KInt z)
  | Cst (KBool b) => if Z.land props P_KBOOL =? 0 then None else Some (KBool b)
  | Cst (KFloat f) => if Z.land props P_KFLOAT =? 0 then None else Some (KFloat f)
  | Cst (KStr s) => if Z.land props P_KSTRING =? 0 then None else Some (KStr s)
  | Raw _ => None
  end.

(** VM_POP_STK_TWO, src/vm/vm_pop_stk.h:42-75. *)
Definition pop_two (op1 : Z) (v2 : op2) (props : Z) (sk : list slot) (w : W S)
  : option (V S * V S * list slot) :=
  let m := Z.land props P_ILOAD in
  if m =? P_ILOAD_K then
    match sk, imm_const v2 props with
    | inl a :: sk', Some k => Some (a, kval S k, sk')
    | _, _ => None
    end
  else if m =? P_ILOAD_R then
    match sk with
    | inl a :: sk' => Some (a, vget S w (reg_var op1 props), sk')
    | _ => None
    end
  else if m =? P_ILOAD_KR then
    match imm_const v2 props with
    | Some k => Some (kval S k, vget S w (reg_var op1 props), sk)
    | None => None
    end
  else if m =? P_ILOAD_RK then
    match imm_const v2 props with
    | Some k => Some (vget S w (reg_var op1 props), kval S k, sk)
    | None => None
    end
  else if m =? P_ILOAD_RR then
    match v2 with
    | Raw z => Some (vget S w (reg_var op1 props),
                     vget S w (reg_var (Z.shiftr (Z.land z 16711680) 16) z), sk)
    | Cst _ => None
    end
  else
    match sk with
    | inl b :: inl a :: sk' => Some (a, b, sk')
    | _ => None
    end.

(** The first [n] elements of the stack in the order they were pushed, and the
    rest. *)
Fixpoint take_args (n : nat) (sk : list slot) (acc : list slot) : option (list slot * list slot) :=
  match n with
  | O => Some (acc, sk)
  | Datatypes.S n' =>
      match sk with
      | [] => None
      | x :: sk' => take_args n' sk' (x :: acc)
      end
  end.

(** instruction_it = instruction + value_op2. *)
Definition jump (p : nat) (off : Z) (s : st) : sres :=
  let t := Z.of_nat p + off in
  if t <? 0 then Stuck else Next (St (Z.to_nat t) (sk s) (wd s) (scs s)).

(** Push a result, or reset the stack when INSTRUCTION_PROPERTY_RESET_STACK. *)
Definition pushed (rst : bool) (p : nat) (x : slot) (sk' : list slot) (w : W S) (sc : list Z) : sres :=
  Next (St (Datatypes.S p) (if rst then [] else x :: sk') w sc).

(** vm_call puts as many values on the stack as the call asks for
    (src/vm/vm_call.cpp:603-637). *)
Definition fit (n : nat) (vs : list (V S)) : list (V S) := firstn n (vs ++ repeat (undefv S) n).

Definition of_ev {A} (r : ev (W S) A) (k : A -> W S -> sres) : sres :=
  match r with EOk a w => k a w | EErr w => Failed w end.

(** vm_store with n targets, src/vm/vm_store.cpp:31-258: the references are
    popped from the top, the sources read upwards from 2n below the top; all
    2n elements' sources stay on the stack. *)
Fixpoint store_all (ls : list slot) (vs : list slot) (w : W S) : option (ev (W S) unit) :=
  match ls, vs with
  | [], _ => Some (EOk tt w)
  | inr l :: ls', inl v :: vs' =>
      match assign S A_SET l v w with
      | EOk _ w' => store_all ls' vs' w'
      | EErr w' => Some (EErr w')
      end
  | _, _ => None
  end.

(** ZS_SCOPE_MAX_INNER_SCOPES_FUNCTION: the open scope blocks of an activation
    are kept in an array of this size (src/vm/vm_scope.h:18) which ZS_VM_PUSH_SCOPE
    (vm_scope.h:5-7) writes without a check, so one more is undefined behaviour. *)
Definition max_scopes : nat := 10.

(** lbl_return_function, src/vm/vm_script_function.cpp:674-688: the scope blocks
    still open are popped, innermost first. *)
Fixpoint leave_all (sc : list Z) (w : W S) : W S :=
  match sc with [] => w | z :: sc' => leave_all sc' (popsc S z w) end.

(** One iteration of the loop, src/vm/vm_script_function.cpp:108-672. *)
Definition step (C : code) (s : st) : sres :=
  let p := pc s in
  let w := wd s in
  let sc := scs s in
  match nth_error C p with
  | None => Stuck
  | Some i =>
  match i with
  | LoadK k => pushed false p (inl (kval S k)) (sk s) w sc
  | LoadUndef => pushed false p (inl (undefv S)) (sk s) w sc
  | LoadNull => pushed false p (inl (nullv S)) (sk s) w sc
  | LoadFun f => pushed false p (inl (funv S f)) (sk s) w sc
  | LoadType t => pushed false p (inl (typev S t)) (sk s) w sc
  | LoadVar x => pushed false p (inl (vget S w x)) (sk s) w sc
  | PushVar x => pushed false p (inr (lvar S x)) (sk s) w sc
  | Bin o op1 v2 props =>
      match pop_two op1 v2 props (sk s) w with
      | Some (a, b, sk') =>
          of_ev (binop S o a b w) (fun v w' => pushed false p (inl v) sk' w' sc)
      | None => Stuck
      end
  | Un u =>
      match sk s with
      | inl a :: sk' => of_ev (unop S u a w) (fun v w' => pushed false p (inl v) sk' w' sc)
      | _ => Stuck
      end
  | Inst t =>
      match sk s with
      | inl a :: sk' => of_ev (instof S a t w) (fun v w' => pushed false p (inl v) sk' w' sc)
      | _ => Stuck
      end
  | IncDec post inc rst =>
      match sk s with
      | inr l :: sk' => of_ev (incdec S post inc l w) (fun v w' => pushed rst p (inl v) sk' w' sc)
      | _ => Stuck
      end
  | Asg a rst =>
      match sk s with
      | inr l :: inl v :: sk' =>
          of_ev (assign S a l v w) (fun v' w' => pushed rst p (inl v') sk' w' sc)
      | _ => Stuck
      end
  | Store n rst =>
      match take_args n (sk s) [] with
      | Some (ls, sk1) =>
          match take_args n sk1 [] with
          | Some (vs, _) =>
              match store_all (rev ls) vs w with
              | Some r => of_ev r (fun _ w' => Next (St (Datatypes.S p) (if rst then [] else sk1) w' sc))
              | None => Stuck
              end
          | None => Stuck
          end
      | None => Stuck
      end
  | Prim q n rst =>
      match take_args n (sk s) [] with
      | Some (args, sk') =>
          of_ev (prim S q args w) (fun v w' => pushed rst p (inl v) sk' w' sc)
      | None => Stuck
      end
  | LPrim q n =>
      match take_args n (sk s) [] with
      | Some (args, sk') =>
          of_ev (lprim S q args w) (fun l w' => pushed false p (inr l) sk' w' sc)
      | None => Stuck
      end
  | ItInit =>
      match sk s with
      | inr l :: inl v :: _ => of_ev (itinit S v l w) (fun _ w' => Next (St (Datatypes.S p) [] w' sc))
      | _ => Stuck
      end
  | ItLoad k =>
      match sk s with
      | inl v :: sk' => of_ev (itload S k v w) (fun f w' => pushed false p (inl f) sk' w' sc)
      | _ => Stuck
      end
  | ItCall n rst =>
      match sk s with
      | inl f :: sk' =>
          of_ev (itcall S n f w) (fun vs w' =>
            Next (St (Datatypes.S p) (if rst then [] else map inl (rev (fit n vs)) ++ sk') w' sc))
      | _ => Stuck
      end
  | Jmp _ off => jump p off s
  | Jnt _ off =>
      match sk s with
      | inl v :: sk' =>
          match vbool S v with
          | None => Failed w
          | Some true => Next (St (Datatypes.S p) sk' w sc)
          | Some false => jump p off (St p sk' w sc)
          end
      | _ => Stuck
      end
  | Jt _ off =>
      match sk s with
      | inl v :: sk' =>
          match vbool S v with
          | None => Failed w
          | Some false => Next (St (Datatypes.S p) sk' w sc)
          | Some true => jump p off (St p sk' w sc)
          end
      | _ => Stuck
      end
  | JeCase off =>
      match sk s with
      | inl b :: inl a :: sk' =>
          of_ev (caseeq S a b w) (fun e w' =>
            if e then jump p off (St p [] w' sc)
            else Next (St (Datatypes.S p) (inl a :: sk') w' sc))
      | _ => Stuck
      end
  | JmpCase off => jump p off (St p [] w sc)
  | Reset => Next (St (Datatypes.S p) [] w sc)
  | PushScope z =>
      if (length sc <? max_scopes)%nat then Next (St (Datatypes.S p) (sk s) w (z :: sc)) else Stuck
  | PopScope =>
      match sc with
      | z :: sc' => Next (St (Datatypes.S p) (sk s) (popsc S z w) sc')
      | [] => Stuck
      end
  | Ret => Done (leave_all sc w) (sk s)
  | EndFun => Done (leave_all sc w) []
  end
  end.

(** Runs of the loop. *)
Inductive steps (C : code) : st -> st -> Prop :=
| steps_refl : forall s, steps C s s
| steps_cons : forall s1 s2 s3, step C s1 = Next s2 -> steps C s2 s3 -> steps C s1 s3.

(** The script stops with an error in world [w]. *)
Definition fails (C : code) (s : st) (w : W S) : Prop :=
  exists s', steps C s s' /\ step C s' = Failed w.

End Machine.
