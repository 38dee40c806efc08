(** Values and operators of the virtual machine.

    Source: /repo/src/core/StackElement.h, StackElement.cpp, vm/vm_operation.h,
    vm/vm_operation_assign.h, vm/vm_call_metamethod.cpp, vm/vm_store.cpp.

    Simplifications.
    - A stack element is its 64-bit word and its property bits; pointers are opaque
      addresses in the word, the object behind an address is given by a heap.
    - Metamethods written by the user are not run: an operator that reaches one
      yields [Meta].  Text of error messages is dropped: a script error is [Fail].
    - Signed overflow and out-of-range shifts are undefined behaviour: [UBd]. *)
From Coq Require Import List ZArith Bool Lia.
From Verif Require Export FloatModel.
Import ListNotations.
Open Scope Z_scope.

(** /repo/src/core/StackElement.h:87-100 *)
Record stk := Stk { val : Z; props : Z }.

(** /repo/src/core/StackElement.h:63-85 *)
Definition P_UNDEFINED : Z := 0.
Definition P_NULL : Z := 1.
Definition P_CHAR_PTR : Z := 2.
Definition P_INT : Z := 4.
Definition P_FLOAT : Z := 8.
Definition P_BOOL : Z := 16.
Definition P_TYPE : Z := 32.
Definition P_FUNCTION : Z := 64.
Definition P_MEMBER_FUNCTION : Z := 128.
Definition P_MEMBER_PROPERTY : Z := 256.
Definition P_OBJECT : Z := 512.
Definition P_CONTAINER_SLOT : Z := 1024.
Definition P_OBJECT_IN_CONTAINER : Z := 2048.
Definition P_PTR_STK : Z := 4096.
Definition P_READ_ONLY : Z := 8192.

(** [p & mask != 0] *)
Definition has (p m : Z) : bool := negb (Z.land p m =? 0).
(** STACK_ELEMENT_PRIMITIVE_TYPE_PROPERTIES, StackElement.h:7-8 *)
Definition prim (p : Z) : Z := Z.land p (P_FUNCTION - 1).
(** msk_properties, vm_operation.h:60 and STACK_ELEMENT_OP1_x_OP2_y, StackElement.h:26-31 *)
Definition msk (p1 p2 : Z) : Z := Z.lor (Z.shiftl p1 16) p2.

(** /repo/src/core/type/ScriptTypeId.h:43-94, the ids the operators mention *)
Definition T_UNDEFINED : Z := 1.
Definition T_NULL : Z := 2.
Definition T_INT : Z := 4.
Definition T_BOOL : Z := 10.
Definition T_FLOAT : Z := 12.
Definition T_FUNCTION : Z := 16.
Definition T_STRING : Z := 20.
Definition T_ARRAY : Z := 24.
Definition T_OBJECT : Z := 25.

(** What the operators look at in an object: its type id, and the bytes of a string. *)
Inductive obj :=
| OStr (bytes : list Z)
| OArr
| ODict
| OOther (tid : Z).
Definition heap := Z -> option obj.
Definition tid_of (o : obj) : Z :=
  match o with OStr _ => T_STRING | OArr => T_ARRAY | ODict => T_OBJECT | OOther t => t end.

(** STACK_ELEMENT_IS_..._SCRIPT_OBJECT, StackElement.h:13-22. [None]: dangling pointer. *)
Definition obj_of (h : heap) (s : stk) : option (option obj) :=
  if has (props s) (Z.lor P_OBJECT P_OBJECT_IN_CONTAINER)
  then match h (val s) with Some o => Some (Some o) | None => None end
  else Some None.

Definition in64 (z : Z) : bool := (- 2 ^ 63 <=? z) && (z <? 2 ^ 63).

(** Metamethods named by the operators, /repo/src/core/object/metamethod *)
Inductive meta :=
| M_EQU | M_NEQU | M_LT | M_LTE | M_GT | M_GTE | M_NOT | M_NEG | M_BWC
| M_ADD | M_SUB | M_MUL | M_DIV | M_MOD | M_AND | M_OR | M_XOR | M_SHL | M_SHR.

Inductive opres :=
| Push (s : stk)                 (* one element is pushed *)
| NewStr (bytes : list Z)        (* a new string object is pushed *)
| NewArr (a b : Z)               (* a new array: concatenation of two arrays *)
| NewDict (a b : Z)              (* a new object: concatenation of two objects *)
| CallMeta (m : meta) (o : Z) (a b : stk)   (* user metamethod of object [o] *)
| Fail                           (* script error *)
| UBd.                           (* undefined behaviour *)

Definition push_int (z : Z) : opres := if in64 z then Push (Stk z P_INT) else UBd.
Definition push_float (f : f64) : opres := Push (Stk (enc f) P_FLOAT).
Definition push_bool (b : bool) : opres := Push (Stk (Z.b2z b) P_BOOL).

Section Operators.
Variable h : heap.
(** Text of an element that is not a string object (vm: stackElementValueToString,
    /repo/src/ScriptEngine.cpp:390-438, and ScriptObject::toString). *)
Variable text : stk -> list Z.

(** StringScriptObject::set, /repo/src/core/object/StringScriptObject.cpp:301-303: the text
    goes through String::unescape (/repo/src/base/String.cpp:409-432, modelled on its buffer
    as [StringModel.s_unescape]; [PassProofs.set_text_unesc] relates the two): a backslash and
    the next character become one character, or nothing when the pair is no escape; a
    backslash at the end stays. *)
Fixpoint set_text (l : list Z) : list Z :=
  match l with
  | [] => []
  | c :: r =>
      match r with
      | [] => [c]
      | e :: r' =>
          if c =? 92 then
            (if e =? 92 then [92] else if e =? 110 then [10] else if e =? 116 then [9]
             else if e =? 34 then [34] else if e =? 39 then [39] else []) ++ set_text r'
          else c :: set_text r
      end
  end.

(** newStringScriptObjectAddStk, /repo/src/core/object/StringScriptObject.cpp:27-83:
    each side is converted to text; [set] (line 80) stores the two texts joined. *)
Definition text_of (s : stk) : list Z :=
  match obj_of h s with
  | Some (Some (OStr b)) => b
  | _ => text s
  end.

(** vm_call_metamethod, /repo/src/vm/vm_call_metamethod.cpp:6-255, for two operands
    and [_is_static=true] (all binary operators). *)
Definition call_meta2 (m : meta) (a b : stk) : opres :=
  match obj_of h a, obj_of h b with
  | Some oa, Some ob =>
      let isadd := match m with M_ADD => true | _ => false end in
      let rest :=
        if has (props a) P_OBJECT then CallMeta m (val a) a b
        else if has (props b) P_OBJECT then CallMeta m (val b) a b
        else Fail in
      if isadd then
        match oa, ob with
        | Some (OStr _), _ | _, Some (OStr _) => NewStr (set_text (text_of a ++ text_of b))
        | Some OArr, Some OArr => NewArr (val a) (val b)
        | Some ODict, Some ODict => NewDict (val a) (val b)
        | _, _ => rest
        end
      else rest
  | _, _ => UBd
  end.

(** The same for one operand and [_is_static=false] (NOT, NEG, BWC). *)
Definition call_meta1 (m : meta) (a : stk) : opres :=
  match obj_of h a with
  | Some _ => if has (props a) P_OBJECT then CallMeta m (val a) a a else Fail
  | None => UBd
  end.

Definition II := msk P_INT P_INT.
Definition IF := msk P_INT P_FLOAT.
Definition FI := msk P_FLOAT P_INT.
Definition FF := msk P_FLOAT P_FLOAT.
Definition BB := msk P_BOOL P_BOOL.

(** ZS_VM_OPERATION_DIV, vm_operation.h:59-97 *)
Definition op_div (a b : stk) : opres :=
  let k := msk (prim (props a)) (prim (props b)) in
  if k =? II then
    if val b =? 0 then Fail else push_float (fdiv (of_int (val a)) (of_int (val b)))
  else if k =? IF then
    if feqb (dec (val b)) (of_int 0) then Fail else push_float (fdiv (of_int (val a)) (dec (val b)))
  else if k =? FI then
    if val b =? 0 then Fail else push_float (fdiv (dec (val a)) (of_int (val b)))
  else if k =? FF then
    if feqb (dec (val b)) (of_int 0) then Fail else push_float (fdiv (dec (val a)) (dec (val b)))
  else call_meta2 M_DIV a b.

(** ZS_VM_OPERATION_MOD, vm_operation.h:226-264: the integers are converted to double
    and the result is a double in all cases. *)
Definition op_mod (a b : stk) : opres :=
  let k := msk (prim (props a)) (prim (props b)) in
  if k =? II then
    if val b =? 0 then Fail else push_float (fmod (of_int (val a)) (of_int (val b)))
  else if k =? IF then
    if feqb (dec (val b)) (of_int 0) then Fail else push_float (fmod (of_int (val a)) (dec (val b)))
  else if k =? FI then
    if val b =? 0 then Fail else push_float (fmod (dec (val a)) (of_int (val b)))
  else if k =? FF then
    if feqb (dec (val b)) (of_int 0) then Fail else push_float (fmod (dec (val a)) (dec (val b)))
  else call_meta2 M_MOD a b.

(** ZS_VM_OPERATION_ADD, vm_operation.h:99-126, and
    ZS_VM_OPERATION_ARITHMETIC, vm_operation.h:128-155 *)
Definition op_arith (m : meta) (iop : Z -> Z -> Z) (fop : f64 -> f64 -> f64) (a b : stk) : opres :=
  let k := msk (prim (props a)) (prim (props b)) in
  if k =? II then push_int (iop (val a) (val b))
  else if k =? IF then push_float (fop (of_int (val a)) (dec (val b)))
  else if k =? FI then push_float (fop (dec (val a)) (of_int (val b)))
  else if k =? FF then push_float (fop (dec (val a)) (dec (val b)))
  else call_meta2 m a b.
Definition op_add := op_arith M_ADD Z.add fadd.
Definition op_sub := op_arith M_SUB Z.sub fsub.
Definition op_mul := op_arith M_MUL Z.mul fmul.

(** The six comparisons: __C_OP__ of ZS_VM_OPERATION_COMPARE *)
Inductive cmp := CEq | CNe | CLt | CLe | CGt | CGe.
Definition cmp_meta (c : cmp) : meta :=
  match c with CEq => M_EQU | CNe => M_NEQU | CLt => M_LT | CLe => M_LTE | CGt => M_GT | CGe => M_GTE end.
Definition cmpZ (c : cmp) (x y : Z) : bool :=
  match c with
  | CEq => x =? y | CNe => negb (x =? y)
  | CLt => x <? y | CLe => x <=? y | CGt => y <? x | CGe => y <=? x
  end.
Definition cmpF (c : cmp) (x y : f64) : bool :=
  match c with
  | CEq => feqb x y | CNe => negb (feqb x y)
  | CLt => fltb x y | CLe => fleb x y | CGt => fltb y x | CGe => fleb y x
  end.
Definition tobool (z : Z) : Z := Z.b2z (negb (z =? 0)).

(** C [strcmp] on the bytes of two strings; a NUL byte ends a string *)
Fixpoint c_strcmp (a b : list Z) : Z :=
  match a, b with
  | [], [] => 0
  | [], y :: _ => if y =? 0 then 0 else -1
  | x :: _, [] => if x =? 0 then 0 else 1
  | x :: a', y :: b' =>
      if x =? y then (if x =? 0 then 0 else c_strcmp a' b')
      else if x <? y then -1 else 1
  end.

(** vm_push_stk_boolean_equal_strings, /repo/src/vm/vm.cpp; both are strings *)
Definition cmp_strings (c : cmp) (x y : list Z) : bool := cmpZ c (c_strcmp x y) 0.

Definition is_eqne (c : cmp) : bool := match c with CEq | CNe => true | _ => false end.
Definition is_eq (c : cmp) : bool := match c with CEq => true | _ => false end.

(** ZS_VM_OPERATION_COMPARE, vm_operation.h:157-224 *)
Definition op_cmp (c : cmp) (a b : stk) : opres :=
  let k := msk (prim (props a)) (prim (props b)) in
  if k =? II then push_bool (cmpZ c (val a) (val b))
  else if k =? BB then push_bool (cmpZ c (tobool (val a)) (tobool (val b)))
  else if k =? IF then push_bool (cmpF c (of_int (val a)) (dec (val b)))
  else if k =? FI then push_bool (cmpF c (dec (val a)) (of_int (val b)))
  else if k =? FF then push_bool (cmpF c (dec (val a)) (dec (val b)))
  else if has (props a) P_TYPE then
    if is_eqne c then
      if (val a =? T_UNDEFINED) && (props a =? T_UNDEFINED) && is_eq c then push_bool true
      else if (val a =? T_UNDEFINED) && negb (props a =? T_UNDEFINED) && negb (is_eq c) then push_bool true
      else push_bool (cmpZ c (val a) (val b))
    else push_bool false
  else
    match obj_of h a, obj_of h b with
    | Some oa, Some ob =>
        match oa, ob with
        | Some (OStr x), Some (OStr y) => push_bool (cmp_strings c x y)
        | _, _ =>
            if ((props a =? P_UNDEFINED) || (props b =? P_UNDEFINED)) && is_eqne c then
              if (props a =? P_UNDEFINED) && (props b =? P_UNDEFINED) then push_bool (is_eq c)
              else push_bool (negb (is_eq c))
            else if ((props a =? P_NULL) || (props b =? P_NULL)) && is_eqne c then
              if (props a =? P_NULL) && (props b =? P_NULL) then push_bool (is_eq c)
              else push_bool (negb (is_eq c))
            else call_meta2 (cmp_meta c) a b
        end
    | _, _ => UBd
    end.

(** ZS_VM_OPERATION_LOGIC, vm_operation.h:266-272 *)
Definition op_logic (f : bool -> bool -> bool) (a b : stk) : opres :=
  if prim (Z.land (props a) (props b)) =? P_BOOL
  then push_bool (f (negb (val a =? 0)) (negb (val b =? 0)))
  else Fail.

(** Bitwise operators. C++11: a shift count outside 0..63, a left shift of a negative
    number or one that loses bits of the unsigned type is undefined. *)
Inductive bop := BAnd | BOr | BXor | BShl | BShr.
Definition bop_meta (o : bop) : meta :=
  match o with BAnd => M_AND | BOr => M_OR | BXor => M_XOR | BShl => M_SHL | BShr => M_SHR end.
Definition wrap64 (z : Z) : Z := (z + 2 ^ 63) mod 2 ^ 64 - 2 ^ 63.
Definition bopZ (o : bop) (x y : Z) : option Z :=
  match o with
  | BAnd => Some (Z.land x y)
  | BOr => Some (Z.lor x y)
  | BXor => Some (Z.lxor x y)
  | BShl => if (0 <=? y) && (y <? 64) && (0 <=? x) && (x * 2 ^ y <? 2 ^ 64)
            then Some (wrap64 (x * 2 ^ y)) else None
  | BShr => if (0 <=? y) && (y <? 64) then Some (Z.shiftr x y) else None
  end.
Definition push_oint (o : option Z) : opres :=
  match o with Some z => push_int z | None => UBd end.

(** ZS_VM_OPERATION_BINARY, vm_operation.h:275-289 *)
Definition op_bits (o : bop) (a b : stk) : opres :=
  if prim (Z.land (props a) (props b)) =? P_INT
  then push_oint (bopZ o (val a) (val b))
  else call_meta2 (bop_meta o) a b.

(** BYTE_CODE_NOT / NEG / BWC, /repo/src/vm/vm_script_function.cpp:192-247 *)
Definition op_not (a : stk) : opres :=
  if has (props a) P_BOOL then push_bool (val a =? 0) else call_meta1 M_NOT a.
Definition op_neg (a : stk) : opres :=
  if has (props a) P_INT then push_int (- val a)
  else if has (props a) P_FLOAT then push_float (fopp (dec (val a)))
  else call_meta1 M_NEG a.
Definition op_bwc (a : stk) : opres :=
  if has (props a) P_INT then push_int (Z.lnot (val a)) else call_meta1 M_BWC a.

(** StackElement::typeOf, /repo/src/core/StackElement.cpp:25-54, for an element that is
    not itself a pointer to a stack slot or a container slot. *)
Definition type_of (a : stk) : option stk :=
  if props a =? P_UNDEFINED then Some (Stk T_UNDEFINED P_TYPE)
  else if props a =? P_NULL then Some (Stk T_NULL P_TYPE)
  else if has (props a) P_INT then Some (Stk T_INT P_TYPE)
  else if has (props a) P_FLOAT then Some (Stk T_FLOAT P_TYPE)
  else if has (props a) P_BOOL then Some (Stk T_BOOL P_TYPE)
  else if has (props a) (Z.lor P_FUNCTION P_MEMBER_FUNCTION) then Some (Stk T_FUNCTION P_TYPE)
  else if has (props a) P_TYPE then Some a
  else if has (props a) (Z.lor P_OBJECT P_OBJECT_IN_CONTAINER) then
    match h (val a) with Some o => Some (Stk (tid_of o) P_TYPE) | None => None end
  else Some (Stk (-1) P_TYPE).

(** Result of an operator that also writes its left operand, a variable:
    the variable afterwards and the element pushed. *)
Inductive asres :=
| Asg (x r : stk)
| AppStr (o : Z) (bytes : list Z)   (* text appended to string object [o]; [o] pushed *)
| AMeta                             (* user metamethod *)
| AFail                             (* script error, variable unchanged *)
| AUB.

Definition set_int (x : stk) (z : Z) : asres :=
  if in64 z then Asg (Stk z (props x)) (Stk z P_INT) else AUB.
(** properties untouched / set to FLOAT *)
Definition keep_float (x : stk) (f : f64) : asres := Asg (Stk (enc f) (props x)) (Stk (enc f) P_FLOAT).
Definition set_float (f : f64) : asres := Asg (Stk (enc f) P_FLOAT) (Stk (enc f) P_FLOAT).

(** vm_call_metamethod_set, vm_call_metamethod.cpp:257-407. Line 292 passes the
    arrays to ObjectScriptObject::append as if they were objects: a cast to an unrelated class. *)
Definition meta_set (isadd : bool) (x e : stk) : asres :=
  match obj_of h x, obj_of h e with
  | Some ox, Some oe =>
      let rest :=
        if (props e =? 0) || has (props e) P_NULL then AFail
        else if has (props x) (Z.lor P_MEMBER_PROPERTY P_OBJECT) then AMeta
        else AFail in
      if isadd then
        match ox, oe with
        | Some (OStr _), _ => AppStr (val x) (text_of e)
        | Some OArr, Some OArr => AUB
        | _, _ => rest
        end
      else rest
  | _, _ => AUB
  end.

(** ZS_VM_OPERATION_ADD_ASSIGN and ZS_VM_OPERATION_ARITHMETIC_ASSIGN,
    vm_operation_assign.h:19-92: in the INT/FLOAT case the word of the integer is
    read as a double. *)
Definition as_arith (isadd : bool) (iop : Z -> Z -> Z) (fop : f64 -> f64 -> f64) (x e : stk) : asres :=
  let k := msk (prim (props x)) (prim (props e)) in
  if k =? II then set_int x (iop (val x) (val e))
  else if k =? IF then set_float (fop (dec (val x)) (dec (val e)))
  else if k =? FI then keep_float x (fop (dec (val x)) (of_int (val e)))
  else if k =? FF then keep_float x (fop (dec (val x)) (dec (val e)))
  else meta_set isadd x e.
Definition as_add := as_arith true Z.add fadd.
Definition as_sub := as_arith false Z.sub fsub.
Definition as_mul := as_arith false Z.mul fmul.

(** ZS_VM_OPERATION_DIV_ASSIGN, vm_operation_assign.h:94-140, and
    ZS_VM_OPERATION_MOD_ASSIGN, 143-189 *)
Definition as_divmod (fop : f64 -> f64 -> f64) (x e : stk) : asres :=
  let k := msk (prim (props x)) (prim (props e)) in
  if k =? II then
    if val e =? 0 then AFail else set_float (fop (of_int (val x)) (of_int (val e)))
  else if k =? IF then
    if feqb (dec (val e)) (of_int 0) then AFail else set_float (fop (of_int (val x)) (dec (val e)))
  else if k =? FI then
    if val e =? 0 then AFail else keep_float x (fop (dec (val x)) (of_int (val e)))
  else if k =? FF then
    if feqb (dec (val e)) (of_int 0) then AFail else keep_float x (fop (dec (val x)) (dec (val e)))
  else meta_set false x e.
Definition as_div := as_divmod fdiv.
Definition as_mod := as_divmod fmod.

(** ZS_VM_OPERATION_BINARY_ASSIGN, vm_operation_assign.h:191-209 *)
Definition as_bits (o : bop) (x e : stk) : asres :=
  if prim (Z.land (props x) (props e)) =? P_INT
  then match bopZ o (val x) (val e) with Some z => set_int x z | None => AUB end
  else meta_set false x e.

(** VM_POST_OPERATION / VM_PRE_OPERATION, vm_operation.h:291-349, on the variable the
    popped pointer designates; [d] is 1 for ++ and -1 for --.
    vm_call_metamethod_operation_pre_post (vm_call_metamethod.cpp:409-) needs an object
    or member property, otherwise it is a script error. *)
Definition incdec (post : bool) (d : Z) (x : stk) : asres :=
  let p := prim (props x) in
  if p =? P_INT then
    if in64 (val x + d)
    then Asg (Stk (val x + d) (props x)) (Stk (if post then val x else val x + d) P_INT)
    else AUB
  else if p =? P_FLOAT then
    let f := if 0 <? d then fadd (dec (val x)) fone else fsub (dec (val x)) fone in
    Asg (Stk (enc f) (props x)) (Stk (if post then val x else enc f) P_FLOAT)
  else if has (props x) (Z.lor P_MEMBER_PROPERTY P_OBJECT) then AMeta
  else AFail.

(** vm_store, /repo/src/vm/vm_store.cpp:63-66 and 209-366, one destination that is a
    plain variable (no container slot, no setter). [cst]: BYTE_CODE_STORE_CONST. *)
Inductive stres :=
| Stored (x : stk)
| StoreStr (bytes : list Z)  (* the destination becomes/keeps its own string object, with this text *)
| StoreObj (o : Z)           (* the destination refers to object [o] *)
| SFail
| SUB.
Definition store1 (cst : bool) (x src : stk) : stres :=
  let fin s := Stored (Stk (val s) (if cst then Z.lor (props s) P_READ_ONLY else props s)) in
  if has (props x) P_READ_ONLY then SFail
  else
    let p := if has (props src) P_OBJECT_IN_CONTAINER then P_OBJECT else props src in
    if p =? P_UNDEFINED then fin (Stk 0 P_UNDEFINED)
    else if p =? P_NULL then fin (Stk 0 P_NULL)
    else if has p P_INT then fin (Stk (val src) P_INT)
    else if has p P_FLOAT then fin (Stk (val src) P_FLOAT)
    else if has p P_BOOL then fin (Stk (val src) P_BOOL)
    else if has p (Z.lor (Z.lor P_FUNCTION P_TYPE) P_MEMBER_FUNCTION) then fin src
    else match obj_of h src with
         | None => SUB
         | Some (Some (OStr b)) => StoreStr (set_text b)
         | Some _ => if has p P_OBJECT then StoreObj (val src) else SFail
         end.
End Operators.
