(** What calls of native functions should do, without the functions of [NativeModel]. *)
From Coq Require Import List ZArith Bool String SpecFloat.
From Verif Require Import FloatModel StringModel NativeModel.
Import ListNotations.
Local Open Scope Z_scope.

(** [Extends w t u]: type [u] is [t] or reached from [t] through base types. *)
Inductive Extends (w : world) : tid -> tid -> Prop :=
| Ext_refl t : Extends w t t
| Ext_base t b u : In b (tbases (info w t)) -> Extends w b u -> Extends w t u.

(** No type is its own base, and chains of bases are no longer than the number of types. *)
Definition ranked (w : world) : Prop :=
  exists rank : tid -> nat,
    (forall t, (rank t <= ntypes w)%nat) /\
    (forall t b, In b (tbases (info w t)) -> (rank b < rank t)%nat).

(** [NativeOf w t c]: [c] is the nearest native type going up the first bases of [t]. *)
Inductive NativeOf (w : world) : tid -> tid -> Prop :=
| NO_self t : tnative (info w t) = true -> NativeOf w t t
| NO_base t b r c : tnative (info w t) = false -> tbases (info w t) = b :: r ->
                    NativeOf w b c -> NativeOf w t c.

(** Objects of classes: those written in the script and those registered from C++. *)
Definition class_object (o : obj) : Prop := T_CLASS_OBJECT <= otype o.
(** An object without any C++ object behind it. *)
Definition script_only (w : world) (o : obj) : Prop :=
  class_object o /\ forall c, ~ NativeOf w (otype o) c.

(** [Typed w p q]: [q] is a value of the C++ type a parameter of type [p] is declared with.
    The null pointer is one of every pointer type, and [0] an integer. *)
Inductive Typed (w : world) : tid -> passed -> Prop :=
| Ty_elem v : Typed w T_STACK_ELEMENT (QElem v)
| Ty_int z : Typed w T_INT (QInt z)
| Ty_int_ptr z : Typed w T_INT_PTR (QIntPtr z)
| Ty_float f : Typed w T_FLOAT (QFloat f)
| Ty_float_ptr f : Typed w T_FLOAT_PTR (QFloatPtr f)
| Ty_bool b : Typed w T_BOOL (QBool b)
| Ty_bool_ptr b : Typed w T_BOOL_PTR (QBoolPtr b)
| Ty_fun f : Typed w T_SCRIPT_FUNCTION (QFun f)
| Ty_zero p : Typed w p QZero
| Ty_native o c p : NativeOf w (otype o) c -> Extends w c p -> Typed w p (QNative o)
| Ty_script o : ~ class_object o -> Typed w (otype o) (QScript o)
| Ty_class o : class_object o -> Typed w T_CLASS_OBJECT (QScript o)
| Ty_str_ptr o : otype o = T_STRING_OBJECT -> Typed w T_STRING_PTR (QStrPtr o)
| Ty_str o : otype o = T_STRING_OBJECT -> Typed w T_STRING (QStr o)
| Ty_chars o : otype o = T_STRING_OBJECT -> Typed w T_CONST_CHAR_PTR (QChars o).

(** [Suits w v p]: the value may be given for a parameter of type [p] when an overload is
    looked for: numbers for numbers, booleans for [bool *], strings for strings, objects for
    their type or a base of it, anything for a stack element. *)
Inductive Suits (w : world) : sval -> tid -> Prop :=
| Su_any v : Suits w v T_STACK_ELEMENT
| Su_int z p : In p [T_INT; T_INT_PTR; T_FLOAT_PTR] -> Suits w (VInt z) p
| Su_float f p : In p [T_INT; T_INT_PTR; T_FLOAT; T_FLOAT_PTR] -> Suits w (VFloat f) p
| Su_bool b : Suits w (VBool b) T_BOOL_PTR
| Su_fun f : Suits w (VFun f) T_SCRIPT_FUNCTION
| Su_string o p : otype o = T_STRING_OBJECT ->
    In p [T_STRING_OBJECT; T_STRING_PTR; T_CONST_CHAR_PTR] -> Suits w (VObj o) p
| Su_object o p : otype o <> T_STRING_OBJECT -> Extends w (otype o) p -> Suits w (VObj o) p.

(** The functions a call can mean: the name, a native function, as many parameters as
    arguments, every argument suits its parameter. *)
Definition suitable (w : world) (name : string) (args : list sval) (f : nfun) : Prop :=
  fname f = name /\ fnative f = true /\ Forall2 (Suits w) args (fparams f).

(** The functions that are looked for when called: those of a type, and global functions whose
    name is registered more than once. *)
Definition searched (w : world) (f : nfun) : Prop :=
  fmember f = true \/ fowner f <> T_MAIN \/
  exists l1 g1 l2 g2 l3, globals w = l1 ++ g1 :: l2 ++ g2 :: l3 /\ fname g1 = fname f /\ fname g2 = fname f.

(** The C++ type of the value itself. *)
Definition exact (v : sval) (p : tid) : Prop :=
  match v with
  | VInt _ => p = T_INT \/ p = T_INT_PTR
  | VFloat _ => p = T_FLOAT_PTR
  | VBool _ => p = T_BOOL_PTR
  | _ => False
  end.

(** The integer a double is cut to. *)
Definition cut (f : f64) (z : Z) : Prop :=
  match f with
  | S754_zero _ => z = 0
  | S754_finite s m e =>
      exists a, 0 <= a /\ z = (if s then - a else a) /\
        a * 2 ^ (Z.max 0 (- e)) <= Zpos m * 2 ^ (Z.max 0 e) < (a + 1) * 2 ^ (Z.max 0 (- e))
  | _ => False
  end.

(** Parameters of native functions are of the built-in types or of native classes. *)
Definition native_params (w : world) (f : nfun) : Prop :=
  Forall (fun p => p < T_CLASS_OBJECT \/ tnative (info w p) = true) (fparams f).

(** Type tables as registration leaves them: no cycles, script classes have at most one base
    (compiler_class.cpp allows one, ClassScriptObject.cpp:81), classes extend classes. *)
Definition wf_world (w : world) : Prop :=
  ranked w /\
  (forall t b1 b2 r, tbases (info w t) = b1 :: b2 :: r -> tnative (info w t) = true) /\
  (forall t b, T_CLASS_OBJECT <= t -> In b (tbases (info w t)) -> T_CLASS_OBJECT <= b).

(** Values of the same type. *)
Definition same_type (v v' : sval) : Prop :=
  match v, v' with
  | VUndef, VUndef | VNull, VNull | VOther, VOther => True
  | VInt _, VInt _ | VFloat _, VFloat _ | VBool _, VBool _ | VFun _, VFun _ => True
  | VObj o, VObj o' | VSlot o, VSlot o' => otype o = otype o'
  | _, _ => False
  end.

(** Values that [stack_to] hands over whatever the parameter: functions, and objects without a
    C++ object. *)
Definition unchecked (w : world) (v : sval) : Prop :=
  match v with
  | VFun _ => True
  | VObj o | VSlot o => script_only w o
  | _ => False
  end.

(** The functions a scope has after some registrations. *)
Inductive registered : list nfun -> Prop :=
| Reg_none : registered []
| Reg_one fs f fs' : registered fs -> register fs f = Some fs' -> registered fs'.
