(** IEEE-754 binary64 values as the C++ [double] used for [zs_float]
    (/repo/src/Config.h.in:11-12), on top of Coq.Floats.SpecFloat (pure Gallina,
    no axioms).
    Trusted: the C++ implementation of [+ - * /], the comparisons, the conversion
    from a 64-bit integer and [fmod] on doubles are the IEEE-754 round-to-nearest-even
    operations below.  Simplification: there is one NaN (no payloads or signs). *)
From Coq Require Import ZArith Bool Lia.
From Coq Require Export Floats.SpecFloat.
Open Scope Z_scope.

Definition f64 := spec_float.
Definition fprec : Z := 53.
Definition femax : Z := 1024.

Definition fadd : f64 -> f64 -> f64 := SFadd fprec femax.
Definition fsub : f64 -> f64 -> f64 := SFsub fprec femax.
Definition fmul : f64 -> f64 -> f64 := SFmul fprec femax.
Definition fdiv : f64 -> f64 -> f64 := SFdiv fprec femax.
Definition fopp : f64 -> f64 := SFopp.
Definition feqb : f64 -> f64 -> bool := SFeqb.
Definition fltb : f64 -> f64 -> bool := SFltb.
Definition fleb : f64 -> f64 -> bool := SFleb.

(** [(zs_float)i] for a 64-bit integer [i]. *)
Definition of_int (z : Z) : f64 := binary_normalize fprec femax z 0 false.
Definition fone : f64 := of_int 1.

(** C [fmod]: the exact remainder with the sign of [x]. *)
Definition fmod (x y : f64) : f64 :=
  match x, y with
  | S754_nan, _ | _, S754_nan => S754_nan
  | S754_infinity _, _ => S754_nan
  | _, S754_zero _ => S754_nan
  | S754_zero _, _ => x
  | S754_finite _ _ _, S754_infinity _ => x
  | S754_finite s m e, S754_finite _ m' e' =>
      let k := Z.min e e' in
      let r := (Zpos m * 2 ^ (e - k)) mod (Zpos m' * 2 ^ (e' - k)) in
      if r =? 0 then S754_zero s
      else binary_normalize fprec femax (if s then - r else r) k s
  end.

(** Reading the 64-bit word of a [zs_int] as a double:
    [zs_read_intptr_float], /repo/src/Config.h.in:19-22. *)
Definition dec (w : Z) : f64 :=
  let u := w mod 2 ^ 64 in
  let s := 2 ^ 63 <=? u in
  let e := (u / 2 ^ 52) mod 2 ^ 11 in
  let m := u mod 2 ^ 52 in
  if e =? 2047 then (if m =? 0 then S754_infinity s else S754_nan)
  else if e =? 0 then
    match m with Zpos p => S754_finite s p (-1074) | _ => S754_zero s end
  else match m + 2 ^ 52 with
       | Zpos p => S754_finite s p (e - 1075)
       | _ => S754_zero s
       end.

Definition sgn_word (s : bool) (u : Z) : Z := if s then u - 2 ^ 63 else u.

(** Writing a double into the 64-bit word of a [zs_int]:
    [zs_write_intptr_float], /repo/src/Config.h.in:24-27. *)
Definition enc (f : f64) : Z :=
  match f with
  | S754_zero s => sgn_word s 0
  | S754_infinity s => sgn_word s (2047 * 2 ^ 52)
  | S754_nan => 2047 * 2 ^ 52 + 2 ^ 51
  | S754_finite s m e =>
      if Zpos m <? 2 ^ 52 then sgn_word s (Zpos m)
      else sgn_word s ((e + 1075) * 2 ^ 52 + (Zpos m - 2 ^ 52))
  end.
