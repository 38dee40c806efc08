(** What the operators should do, stated on values of the language. *)
From Coq Require Import List ZArith Bool Lia.
From Verif Require Import FloatModel FloatBits FloatInt ValueModel.
Import ListNotations.
Open Scope Z_scope.

(** Values that are not objects. [VFloat w]: the double with bits [w]. *)
Inductive pv :=
| VUndef | VNull
| VInt (z : Z) | VFloat (w : Z) | VBool (b : bool)
| VType (t : Z) | VFun (a : Z).

(** Stack element holding a value; [ro]: it was declared with [const]. *)
Definition ro_bit (ro : bool) : Z := if ro then P_READ_ONLY else 0.
Definition elem (ro : bool) (v : pv) : stk :=
  match v with
  | VUndef => Stk 0 (P_UNDEFINED + ro_bit ro)
  | VNull => Stk 0 (P_NULL + ro_bit ro)
  | VInt z => Stk z (P_INT + ro_bit ro)
  | VFloat w => Stk w (P_FLOAT + ro_bit ro)
  | VBool b => Stk (Z.b2z b) (P_BOOL + ro_bit ro)
  | VType t => Stk t (P_TYPE + ro_bit ro)
  | VFun a => Stk a (P_FUNCTION + ro_bit ro)
  end.
Definition str (a : Z) : stk := Stk a P_OBJECT.

Definition wfv (v : pv) : Prop :=
  match v with VInt z => w64 z | VFloat w => w64 w | _ => True end.

(** Numbers: an int stands for the double nearest to it when the other side is a float. *)
Inductive num := NI (z : Z) | NF (f : f64).
Definition num_of (v : pv) : option num :=
  match v with VInt z => Some (NI z) | VFloat w => Some (NF (dec w)) | _ => None end.
Definition as_f (n : num) : f64 := match n with NI z => of_int z | NF f => f end.
Definition is_zero (n : num) : Prop :=
  match n with NI z => z = 0 | NF f => exists s, f = S754_zero s end.

Definition pushes (r : opres) (v : pv) : Prop := r = Push (elem false v).
Definition pushes_float (r : opres) (f : f64) : Prop := r = Push (Stk (enc f) P_FLOAT).

Inductive aop := AAdd | ASub | AMul.
Definition aopZ (o : aop) : Z -> Z -> Z :=
  match o with AAdd => Z.add | ASub => Z.sub | AMul => Z.mul end.
Definition aopF (o : aop) : f64 -> f64 -> f64 :=
  match o with AAdd => fadd | ASub => fsub | AMul => fmul end.
