(** * The functions max, min, abs, pow, sin and cos of the module Math.

    Modelled source: MathModule_max, _min, _abs, _pow, _sin, _cos, _random
    (src/module/MathModule.cpp:24-65), registered as static functions of the type Math
    (src/ScriptEngine.cpp:44-59).

    A [zs_float] is a double ([FloatModel]).  fabs clears the sign.  powf, sinf and cosf take
    and return floats: the arguments are rounded to binary32 ([narrow]) and the result is made a
    double again ([widen]).  What powf, sinf and cosf compute is not modelled: they are
    parameters.  RAND_MAX is 2^31 - 1, as in glibc.  Left out: PI, degToRad, sqrt, floor, ceil
    and round, each a single call or operation of the C library, and how the arguments get from
    the stack of the virtual machine into the parameters. *)
From Coq Require Import ZArith Bool.
From Verif Require Import FloatModel.
Local Open Scope Z_scope.

(** MathModule_max (MathModule.cpp:57-60): [*_n1>*_n2?*_n1:*_n2]. *)
Definition math_max (x y : f64) : f64 := if fltb y x then x else y.
(** MathModule_min (62-65): [*_n1<*_n2?*_n1:*_n2]. *)
Definition math_min (x y : f64) : f64 := if fltb x y then x else y.
(** MathModule_abs (34-37): fabs. *)
Definition math_abs (x : f64) : f64 :=
  match x with
  | S754_zero _ => S754_zero false
  | S754_infinity _ => S754_infinity false
  | S754_nan => S754_nan
  | S754_finite _ m e => S754_finite false m e
  end.

(** The conversion from double to float, round to nearest even, and back. *)
Definition narrow (x : f64) : spec_float :=
  match x with S754_finite s m e => binary_round 24 128 s m e | _ => x end.
Definition widen (x : spec_float) : f64 :=
  match x with S754_finite s m e => binary_round fprec femax s m e | _ => x end.

(** MathModule_pow (39-42): powf; MathModule_sin, MathModule_cos (24-32): sinf, cosf. *)
Definition math_pow (powf : spec_float -> spec_float -> spec_float) (x y : f64) : f64 := widen (powf (narrow x) (narrow y)).
Definition math_circle (f : spec_float -> spec_float) (x : f64) : f64 := widen (f (narrow x)).

(** MathModule_random (44-55), [rand()*ZS_ONE_OVER_RAND_MAX]: the int [r] that rand returned is
    converted to float and multiplied, in floats, by 1.0f/(float)RAND_MAX (line 7). *)
Definition single_of_int (z : Z) : spec_float := binary_normalize 24 128 z 0 false.
Definition rand_max : Z := 2 ^ 31 - 1.
Definition math_random (r : Z) : f64 :=
  widen (SFmul 24 128 (single_of_int r) (SFdiv 24 128 (single_of_int 1) (single_of_int rand_max))).
