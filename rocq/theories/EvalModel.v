(** * System::eval: running a text as a program and handing over its results.

    Modelled source: src/module/SystemModule.cpp:21-214 (SystemModule_eval), with the end of
    vm_execute_script_function (src/vm/vm_script_function.cpp:67-98, 360-398, 673-701), the
    end of a scope (src/vm/vm.tcc:33-80) and the delivery of results by vm_call
    (src/vm/vm_call.cpp:603-637) for a native function that left its results on the stack.

    The text is given as a string (for the unescaping, line 118) and as a syntax tree (for
    the rest); it is compiled by [comp_fun] of StmtModel.  Not modelled: texts that do not
    compile, errors of the evaluated program (they stop the caller as well), declarations of
    functions and classes inside the text, the counts of the objects passed as arguments, more
    than 15 arguments (an error, ScriptFunction.cpp:721-726). *)
From Coq Require Import ZArith List Bool Lia.
From Verif Require Import Base FloatModel StringModel ExprModel VmModel StmtModel.
Import ListNotations.
Local Open Scope Z_scope.

(** SystemModule.cpp:115: the source is unescaped before it is compiled. *)
Definition eval_text (s : cstring) : res cstring := s_unescape s.

(** SystemModule.cpp:133-152.  The buffer has two instructions more than the code; those behind
    the RET are not initialised, so the model ends there and a jump to them is stuck. *)
Definition eval_code (C : code) : code :=
  let n := length C in
  if (2 <? n)%nat then
    match nth_error C (n - 2) with
    | Some Ret => C
    | Some Reset => firstn (n - 2) C ++ [LoadUndef; Ret]
    | _ => firstn (n - 1) C ++ [LoadUndef; Ret]
    end
  else C.

(** ** How the activation of the evaluated function ends *)
Section Run.
Variable S : Sem.

(** By RET with values, lowest on the stack first (vm_script_function.cpp:360-398), or by
    END_FUNCTION (673-684). *)
Inductive fin := FRet (w : W S) (vs : list (slot S)) | FEnd (w : W S).

Definition runs_to (C : code) (w : W S) (f : fin) : Prop :=
  exists s, steps S C (St S 0 [] w []) s /\
  match f with
  | FRet w' vs => nth_error C (pc S s) = Some Ret /\ w' = leave_all S (scs S s) (wd S s) /\ vs = rev (sk S s)
  | FEnd w' => nth_error C (pc S s) = Some EndFun /\ w' = leave_all S (scs S s) (wd S s)
  end.
End Run.

(** ** The stack of the machine: elements by position, and vm_stk_current *)
Section Stack.
Variable A : Type.
Variable und : A.      (* an undefined element *)

Definition mem := Z -> A.
Definition mset (m : mem) (i : Z) (x : A) : mem := fun j => if j =? i then x else m j.

(** [k] elements from [src] on to [dst] on, one after the other. *)
Fixpoint copy (k : nat) (dst src : Z) (m : mem) : mem :=
  match k with
  | O => m
  | S k' => copy k' (dst + 1) (src + 1) (mset m dst (m src))
  end.
(** The loops that invert [n] elements from [b] on (SystemModule.cpp:203-207,
    vm_call.cpp:621-625): [k] rounds from index [i] on. *)
Fixpoint invert (k : nat) (i b n : Z) (m : mem) : mem :=
  match k with
  | O => m
  | S k' =>
      let tmp := m (b + (n - i - 1)) in
      invert k' (i + 1) b n (mset (mset m (b + (n - i - 1)) (m (b + i))) (b + i) tmp)
  end.
(** [k] elements from [i] on undefined. *)
Fixpoint fill (k : nat) (i : Z) (m : mem) : mem :=
  match k with
  | O => m
  | S k' => fill k' (i + 1) (mset m i und)
  end.
(** The elements of a list from [i] on. *)
Fixpoint put (vs : list A) (i : Z) (m : mem) : mem :=
  match vs with
  | [] => m
  | v :: vs' => put vs' (i + 1) (mset m i v)
  end.

(** The stack after the activation: its local variables are undefined (vm.tcc:72); returned
    values lie above them, and vm_stk_current is behind them, or, after END_FUNCTION, at the
    first local variable (vm_script_function.cpp:682-684). [E]: the first local variable,
    [np] parameters, [nl] other local variables; [None]: END_FUNCTION. *)
Definition left_by (E np nl : Z) (r : option (list A)) (m : mem) : mem * Z :=
  let m1 := fill (Z.to_nat (np + nl)) E m in
  match r with
  | Some vs => (put vs (E + np + nl) m1, E + np + nl + Z.of_nat (length vs))
  | None => (m1, E)
  end.

(** SystemModule.cpp:193-209. *)
Definition hand_over (E np : Z) (s : mem * Z) : mem * Z :=
  let '(m, cur) := s in
  let n := cur - (E + np) in
  let m1 := copy (Z.to_nat n) E (E + np) m in
  let m2 := invert (Z.to_nat (n / 2)) 0 E n m1 in
  (m2, E + n).

(** vm_call.cpp:604-637 for a native function with [na] arguments from [b] on, of which [r]
    results are asked for: filled up, inverted, moved to [b]. *)
Definition deliver_native (b na r : Z) (s : mem * Z) : mem * Z :=
  let '(m, cur) := s in
  let E := b + na in
  let n := cur - E in
  let m1 := fill (Z.to_nat (r - n)) cur m in
  let n1 := Z.max n r in
  let m2 := invert (Z.to_nat (n1 / 2)) 0 E n1 m1 in
  (copy (Z.to_nat r) b E m2, b + r).

(** A call of System::eval whose arguments ([na]: the text, and the object if one is given) lie
    from [b] on: the stack of the caller afterwards. *)
Definition eval_call (b na np nl r : Z) (res : option (list A)) (m : mem) : mem * Z :=
  deliver_native b na r (hand_over (b + na) np (left_by (b + na) np nl res m)).
End Stack.

Arguments mset {A}. Arguments copy {A}. Arguments invert {A}. Arguments fill {A}. Arguments put {A}.
Arguments left_by {A}. Arguments hand_over {A}. Arguments deliver_native {A}. Arguments eval_call {A}.

(** What the call leaves, from the way the activation ended. *)
Definition vals_of {S} (f : fin S) : option (list (slot S)) :=
  match f with FRet _ _ vs => Some vs | FEnd _ _ => None end.
Definition world_of {S} (f : fin S) : W S := match f with FRet _ w _ => w | FEnd _ w => w end.

(** [x1, ..., xr = System::eval(text, args)] for a text with the code [C] and [nl] local
    variables: started in the world [w] (the parameters hold the fields of the object) with the
    caller's stack [m], it ends in the world [w'] with the stack [m'], whose top is at [cur]. *)
Definition evals (S : Sem) (C : code) (b na np nl r : Z) (w : W S) (m : mem (slot S))
    (w' : W S) (m' : mem (slot S)) (cur : Z) : Prop :=
  exists f, runs_to S (eval_code C) w f /\ w' = world_of f /\
            (m', cur) = eval_call (inl (undefv S)) b na np nl r (vals_of f) m.

(** ** Local variables of a text: every declaration has a place of its own, a for-in also one
    for its iterator (compiler_keyword_var.cpp:111-117, compiler_keyword_loop.cpp). *)
Fixpoint vars_stmt (s : stmt) : nat :=
  match s with
  | SVar _ _ => 1
  | SBlock b => vars_block b
  | SIf _ b r => vars_block b + vars_els r
  | SWhile _ b => vars_block b
  | SDo b _ => vars_block b
  | SFor _ init _ _ b => (match init with FiVars vs => length vs | _ => 0 end) + vars_block b
  | SForIn _ xs _ _ b => length xs + 1 + vars_block b
  | SSwitch _ cs => vars_clauses cs
  | _ => 0
  end%nat
with vars_els (r : els) : nat :=
  match r with
  | ElNone => 0
  | ElBlock b => vars_block b
  | ElIf _ b r' => vars_block b + vars_els r'
  end%nat
with vars_block (b : block) : nat := match b with Blk _ ss => vars_stmts ss end
with vars_stmts (ss : stmts) : nat :=
  match ss with SNil => 0 | SCons s ss' => vars_stmt s + vars_stmts ss' end%nat
with vars_clauses (cs : clauses) : nat :=
  match cs with CNil => 0 | CCons _ ss _ cs' => vars_stmts ss + vars_clauses cs' end%nat.
