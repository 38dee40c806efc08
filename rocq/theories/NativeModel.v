(** Calls of native (C++) functions: which registered function is run and what it is given.

    Source: /repo/src/vm/vm_native_function.cpp:62-174 (vm_find_native_function), 322-424
    (vm_execute_native_function up to the call), /repo/src/vm/vm_call.cpp:456-535 (the last
    function found is kept per call instruction), /repo/src/ScriptEngine.cpp:499-614
    (canStackElementCastTo), 616-787 (stackElementTo), /repo/src/core/type/ScriptType.cpp:123-135
    (extendsFrom), 308-376 (registerMemberFunction),
    /repo/src/core/function/ScriptFunction.cpp:482-509 (checkNativeFunctionParams), 537-553,
    /repo/src/core/object/ClassScriptObject.cpp:69-88 (the native class of an object).

    Simplifications.
    - Type ids are the numbers of /repo/src/core/type/ScriptTypeId.h:42-99, unbounded above.
    - A parameter list leaves out the leading [ScriptEngine *] and, for member functions, the
      object: the C++ adds [start_param] to both sides of each comparison.
    - Constructor calls are left out (vm_call.cpp:464-468 skips the search for those without
      arguments), and so are error texts.
    - PTR_STK arguments are followed before: the C++ does it first in each of the functions.
    - A pointer handed to a function is kept as the thing it points to. *)
From Coq Require Import List ZArith Bool String SpecFloat.
From Verif Require Import FloatModel StringModel.
Import ListNotations.
Local Open Scope Z_scope.

(** ** Type ids, ScriptTypeId.h:46-93 *)
Definition tid := Z.
Definition T_MAIN : tid := 0.
Definition T_INT : tid := 4.
Definition T_INT_PTR : tid := 5.
Definition T_CONST_CHAR_PTR : tid := 7.
Definition T_STRING : tid := 8.
Definition T_STRING_PTR : tid := 9.
Definition T_BOOL : tid := 10.
Definition T_BOOL_PTR : tid := 11.
Definition T_FLOAT : tid := 12.
Definition T_FLOAT_PTR : tid := 13.
Definition T_STACK_ELEMENT : tid := 15.
Definition T_SCRIPT_FUNCTION : tid := 16.
Definition T_STRING_OBJECT : tid := 20.
Definition T_ARRAY_OBJECT : tid := 24.
Definition T_OBJECT_OBJECT : tid := 25.
Definition T_CLASS_OBJECT : tid := 26.

(** ** Functions, types, values *)
(** A function of a scope's [symbol_functions]: [fbody] stands for the address of the code,
    [fnative] for NATIVE_OBJECT_REF; [fmember]: MEMBER_FUNCTION, else the function is global
    (owner the main type) or static (ScriptType.tcc:128-138, 172-182). *)
Record nfun := NFun { fname : string; fowner : tid; fmember : bool;
                      fnative : bool; fparams : list tid; fbody : Z }.

(** ScriptType: base types, whether it is native, functions of its scope in the order of
    registration. *)
Record tinfo := TI { tbases : list tid; tnative : bool; tfuns : list nfun }.

(** [ntypes]: number of types registered, bounds the depth of the inheritance. *)
Record world := W { ntypes : nat; info : tid -> tinfo; globals : list nfun }.

Record obj := Obj { oaddr : Z; otype : tid }.

(** Stack elements by their type bits.  [VSlot]: CONTAINER_SLOT; [VOther]: the remaining
    kinds (type, member function, character pointer). *)
Inductive sval :=
| VUndef | VNull | VInt (z : Z) | VFloat (f : f64) | VBool (b : bool) | VFun (f : Z)
| VObj (o : obj) | VSlot (o : obj) | VOther.

(** ScriptType.cpp:123-135 *)
Fixpoint extends_from (fuel : nat) (w : world) (t target : tid) : bool :=
  (target =? t)
  || match fuel with
     | O => false
     | S k => existsb (fun b => extends_from k w b target) (tbases (info w t))
     end.
Definition extends (w : world) (t target : tid) : bool := extends_from (ntypes w) w t target.

(** ClassScriptObject.cpp:75-88: the type itself if native, else the first native one going up
    the first bases. *)
Fixpoint native_up (fuel : nat) (w : world) (t : tid) : option tid :=
  if tnative (info w t) then Some t
  else match fuel, tbases (info w t) with
       | S k, b :: _ => native_up k w b
       | _, _ => None
       end.
Definition native_class (w : world) (o : obj) : option tid := native_up (ntypes w) w (otype o).

(** ** Choosing the function *)
(** vm_native_function.cpp:104-160, one argument. *)
Definition find_accepts (w : world) (v : sval) (p : tid) : bool :=
  if p =? T_STACK_ELEMENT then true
  else match v with
       | VInt _ => (p =? T_INT_PTR) || (p =? T_INT) || (p =? T_FLOAT_PTR)
       | VFloat _ => (p =? T_FLOAT_PTR) || (p =? T_FLOAT) || (p =? T_INT_PTR) || (p =? T_INT)
       | VBool _ => p =? T_BOOL_PTR
       | VFun _ => p =? T_SCRIPT_FUNCTION
       | VObj o =>
           if otype o =? T_STRING_OBJECT
           then (p =? T_STRING_OBJECT) || (p =? T_STRING_PTR) || (p =? T_CONST_CHAR_PTR)
           else extends w (otype o) p
       | _ => false
       end.

Fixpoint forall2b {A B} (f : A -> B -> bool) (l : list A) (m : list B) : bool :=
  match l, m with
  | [], [] => true
  | a :: l', b :: m' => f a b && forall2b f l' m'
  | _, _ => false
  end.

(** vm_native_function.cpp:88-173: from the last function registered to the first. *)
Definition candidate (w : world) (name : string) (args : list sval) (f : nfun) : bool :=
  (fname f =? name)%string && fnative f && forall2b (find_accepts w) args (fparams f).
Definition find_native (w : world) (fs : list nfun) (name : string) (args : list sval) : option nfun :=
  find (candidate w name args) (rev fs).

(** ScriptEngine.cpp:499-614, [_strict] false as in the only call. *)
Definition cast_object (w : world) (o : obj) (p : tid) : bool :=
  if p =? otype o then true
  else if otype o =? T_STRING_OBJECT
       then (p =? T_STRING_PTR) || (p =? T_STRING) || (p =? T_CONST_CHAR_PTR)
       else if T_CLASS_OBJECT <=? otype o
            then match (if p =? T_CLASS_OBJECT then None else native_class w o) with
                 | Some c => extends w c p
                 | None => true
                 end
            else false.
Definition can_cast (w : world) (v : sval) (p : tid) : bool :=
  if p =? T_STACK_ELEMENT then true
  else match v with
       | VNull => true
       | VBool _ => (p =? T_BOOL) || (p =? T_BOOL_PTR)
       | VFloat _ => (p =? T_FLOAT) || (p =? T_FLOAT_PTR) || (p =? T_INT)
       | VInt _ => (p =? T_INT) || (p =? T_INT_PTR) || (p =? T_FLOAT) || (p =? T_FLOAT_PTR)
       | VFun _ => true
       | VObj o | VSlot o => cast_object w o p
       | _ => false
       end.

(** A call: the object it is made on, the function denoted by the expression called (found by
    its name in the type of the object or in the scope), the arguments. *)
Record ncall := NCall { crecv : option obj; cfun : nfun; cargs : list sval }.

(** vm_call.cpp:459-474: the scope searched.  [sf_call_is_member_function] holds for calls on
    an object. *)
Definition scope_of (w : world) (c : ncall) : list nfun :=
  match crecv c with
  | Some o => tfuns (info w (otype o))
  | None => if negb (fmember (cfun c)) && negb (fowner (cfun c) =? T_MAIN)
            then tfuns (info w (fowner (cfun c))) else globals w
  end.

(** What a call instruction remembers, [instruction_last_native_call]. *)
Definition site := option nfun.

(** vm_call.cpp:480-506: is the function remembered used again? *)
Definition reusable (w : world) (f : nfun) (args : list sval) : bool :=
  forall2b (can_cast w) args (fparams f).

(** vm_call.cpp:476-533 *)
Definition deduce (w : world) (s : site) (c : ncall) : option nfun * site :=
  let fresh :=
    match find_native w (scope_of w c) (fname (cfun c)) (cargs c) with
    | Some f => (Some f, Some f)
    | None => (None, s)
    end in
  match s with
  | Some f => if reusable w f (cargs c) then (Some f, s) else fresh
  | None => fresh
  end.

(** ** Handing over the arguments *)
(** What a parameter receives. *)
Inductive passed :=
| QElem (v : sval) | QInt (z : Z) | QIntPtr (z : Z) | QFloat (f : f64) | QFloatPtr (f : f64)
| QBool (b : bool) | QBoolPtr (b : bool) | QFun (f : Z) | QZero
| QNative (o : obj)                          (* the C++ object of a script object *)
| QScript (o : obj)                          (* the script object itself *)
| QStrPtr (o : obj) | QStr (o : obj) | QChars (o : obj).

(** C conversion of a double to zs_int: the fraction is dropped; undefined when the result
    does not fit. *)
Definition trunc (f : f64) : res Z :=
  match f with
  | S754_zero _ => Ok 0
  | S754_finite s m e =>
      let a := if 0 <=? e then Zpos m * 2 ^ e else Zpos m / 2 ^ (- e) in
      let z := if s then - a else a in
      if (- 2 ^ 63 <=? z) && (z <? 2 ^ 63) then Ok z else UB
  | _ => UB
  end.

(** ScriptEngine.cpp:692-768.  getNativeObject: c_object for class objects, the object itself
    for the others (ScriptObject.cpp:177-179, ClassScriptObject.cpp:153-155). *)
Definition pass_object (w : world) (o : obj) (p : tid) : res passed :=
  if p =? otype o then
    (if T_CLASS_OBJECT <=? otype o
     then match native_class w o with Some _ => Ok (QNative o) | None => Ok QZero end
     else Ok (QScript o))
  else if otype o =? T_STRING_OBJECT then
    (if p =? T_STRING_PTR then Ok (QStrPtr o)
     else if p =? T_STRING then Ok (QStr o)
     else if p =? T_CONST_CHAR_PTR then Ok (QChars o)
     else Thr)
  else if T_CLASS_OBJECT <=? otype o then
    match (if p =? T_CLASS_OBJECT then None else native_class w o) with
    | Some c => if extends w c p then Ok (QNative o) else Thr
    | None => Ok (QScript o)
    end
  else Thr.

(** ScriptEngine.cpp:616-787 *)
Definition stack_to (w : world) (v : sval) (p : tid) : res passed :=
  if p =? T_STACK_ELEMENT then Ok (QElem v)
  else match v with
       | VNull => Ok QZero
       | VBool b => if p =? T_BOOL then Ok (QBool b)
                    else if p =? T_BOOL_PTR then Ok (QBoolPtr b) else Thr
       | VFloat f => if p =? T_FLOAT then Ok (QFloat f)
                     else if p =? T_FLOAT_PTR then Ok (QFloatPtr f)
                     else if p =? T_INT then do z <- trunc f; Ok (QInt z)
                     else Thr
       | VInt z => if p =? T_INT then Ok (QInt z)
                   else if p =? T_INT_PTR then Ok (QIntPtr z) else Thr
       | VFun f => Ok (QFun f)
       | VObj o | VSlot o => pass_object w o p
       | _ => Thr
       end.

(** vm_native_function.cpp:403-422 *)
Definition pass_arg (w : world) (v : sval) (p : tid) : res passed :=
  match v with
  | VInt z => if p =? T_FLOAT_PTR then Ok (QFloatPtr (of_int z)) else stack_to w v p
  | _ => stack_to w v p
  end.
Fixpoint pass_args (w : world) (args : list sval) (ps : list tid) : res (list passed) :=
  match args, ps with
  | v :: args', p :: ps' => do q <- pass_arg w v p; do qs <- pass_args w args' ps'; Ok (q :: qs)
  | _, _ => Ok []
  end.

(** What a call of a native function gives: the function run, the object it is run on, its
    arguments. *)
Record run := Run { rfun : nfun; rthis : option obj; rargs : list passed }.

Definition max_args : nat := 10.             (* ZS_MAX_NATIVE_FUNCTION_ARGS, Common.h:24 *)

(** [start_param], vm_common.h:38-43 *)
Definition start_param (f : nfun) : nat := if fmember f then 2%nat else 1%nat.

(** vm_native_function.cpp:322-424.  Left out: a global function called on the object of the
    main type. *)
Definition exec_native (w : world) (f : nfun) (this : option obj) (args : list sval) : res run :=
  if negb (fnative f) then Thr
  else
    let go n this' :=
      if (max_args <? n)%nat then Thr
      else if negb (start_param f + List.length (fparams f) =? n)%nat then Thr
      else do qs <- pass_args w args (fparams f); Ok (Run f this' qs) in
    match this with
    | Some o => if fmember f then go (2 + List.length args)%nat (Some o) else Thr
    | None => go (1 + List.length args)%nat None
    end.

(** SCRIPT_FUNCTION_PROPERTY_DEDUCE_AT_RUNTIME.  Functions of a type: always, ScriptType.cpp:370
    finds the function just registered (line 348); global functions: when the name is registered
    again (ScriptFunction.cpp:674-697). *)
Definition deduced (w : world) (f : nfun) : bool :=
  fmember f || negb (fowner f =? T_MAIN)
  || (1 <? List.length (filter (fun g => (fname g =? fname f)%string) (globals w)))%nat.

(** vm_call.cpp:456-546: one call at a call instruction. *)
Definition call_at (w : world) (s : site) (c : ncall) : res run * site :=
  if deduced w (cfun c) then
    match deduce w s c with
    | (Some f, s') => (exec_native w f (crecv c) (cargs c), s')
    | (None, s') => (Thr, s')
    end
  else (exec_native w (cfun c) (crecv c) (cargs c), s).

(** The calls made by one call instruction, one after the other. *)
Fixpoint calls_at (w : world) (s : site) (cs : list ncall) : list (res run) * site :=
  match cs with
  | [] => ([], s)
  | c :: cs' => let (r, s1) := call_at w s c in
                let (rs, s2) := calls_at w s1 cs' in (r :: rs, s2)
  end.

(** ** Registering native functions *)
(** ScriptFunction.cpp:482-509, ScriptType.cpp:342-345, 366-376: a function with the name and
    the parameters of one already there is refused. *)
Definition same_signature (f g : nfun) : bool :=
  (fname f =? fname g)%string && Bool.eqb (fmember f) (fmember g)
  && forall2b Z.eqb (fparams f) (fparams g).
Definition register (fs : list nfun) (f : nfun) : option (list nfun) :=
  if existsb (same_signature f) fs then None else Some (fs ++ [f]).
