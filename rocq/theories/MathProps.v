(** Claims on the module Math: C174 (max, min and abs), C175 (pow, sin and cos) and C176
    (random). *)
From Coq Require Import ZArith Bool Lia List.
From Verif Require Import FloatModel FloatProofs FloatInt MathModel MathProofs.
Local Open Scope Z_scope.

Definition number (x : f64) : Prop := x <> S754_nan.

(** ** C174: max, min and abs *)

(** The result is one of the two arguments and none is greater, or less. *)
Theorem C174_max : forall x y, number x -> number y ->
  (math_max x y = x \/ math_max x y = y) /\ fleb x (math_max x y) = true /\ fleb y (math_max x y) = true.
Proof.
  intros x y X Y. unfold math_max. destruct (fltb y x) eqn:L.
  - split; [auto|]. split; [apply leb_refl, X | apply ltb_leb, L].
  - split; [auto|]. split; [apply not_ltb_leb; assumption | apply leb_refl, Y].
Qed.
Theorem C174_min : forall x y, number x -> number y ->
  (math_min x y = x \/ math_min x y = y) /\ fleb (math_min x y) x = true /\ fleb (math_min x y) y = true.
Proof.
  intros x y X Y. unfold math_min. destruct (fltb x y) eqn:L.
  - split; [auto|]. split; [apply leb_refl, X | apply ltb_leb, L].
  - split; [auto|]. split; [apply not_ltb_leb; assumption | apply leb_refl, Y].
Qed.
(** On whole numbers they are the usual functions, and abs is too. *)
Theorem C174_whole_numbers : forall a b, Z.abs a < 2 ^ 53 -> Z.abs b < 2 ^ 53 ->
  math_max (of_int a) (of_int b) = of_int (Z.max a b) /\ math_min (of_int a) (of_int b) = of_int (Z.min a b) /\ math_abs (of_int a) = of_int (Z.abs a).
Proof.
  intros a b A B. unfold math_max, math_min, fltb, SFltb. rewrite (of_int_compare b a B A), (of_int_compare a b A B). split; [|split].
  - destruct (Z.compare_spec b a); f_equal; lia.
  - destruct (Z.compare_spec a b); f_equal; lia.
  - destruct a as [|p|p]; [reflexivity|..]; cbn [Z.abs] in *; rewrite ?of_int_pos, ?of_int_neg by lia; reflexivity.
Qed.
(** max and min together keep a number between two others. *)
Theorem C174_clamp : forall x lo hi, number x -> number lo -> number hi -> fleb lo hi = true ->
  fleb lo (math_min (math_max x lo) hi) = true /\ fleb (math_min (math_max x lo) hi) hi = true.
Proof.
  intros x lo hi X L H O. destruct (C174_max x lo X L) as (M1 & _ & M2). assert (N : number (math_max x lo)) by (destruct M1 as [-> | ->]; assumption).
  destruct (C174_min (math_max x lo) hi N H) as (M3 & _ & M4). split; [destruct M3 as [-> | ->]; assumption | exact M4].
Qed.
(** The order of the arguments does not change what the result is equal to. *)
Theorem C174_order_of_arguments : forall x y, number x -> number y ->
  feqb (math_max x y) (math_max y x) = true /\ feqb (math_min x y) (math_min y x) = true.
Proof.
  intros x y X Y. unfold math_max, math_min. pose proof (SFcompare_swap x y) as S. destruct (compare_some x y X Y) as (c & C). rewrite C in S.
  assert (R : forall z, number z -> feqb z z = true) by (intros z; apply feqb_refl).
  assert (EQ : c = Eq -> feqb x y = true /\ feqb y x = true) by (intros ->; unfold feqb, SFeqb; rewrite C, S; auto).
  unfold fltb, SFltb. rewrite C, S. destruct c; cbn [CompOpp]; [destruct (EQ eq_refl); auto | auto | auto].
Qed.
(** Of two different numbers one is the maximum and the other the minimum. *)
Theorem C174_both_found : forall x y, number x -> number y -> feqb x y = false ->
  (math_min x y = x /\ math_max x y = y) \/ (math_min x y = y /\ math_max x y = x).
Proof.
  intros x y X Y. unfold math_max, math_min, feqb, SFeqb, fltb, SFltb. rewrite (SFcompare_swap x y). destruct (compare_some x y X Y) as (c & ->).
  destruct c; cbn [CompOpp]; [discriminate | auto | auto].
Qed.
(** abs is the number or its negation and not less than zero. *)
Theorem C174_abs : forall x, number x -> (math_abs x = x \/ math_abs x = fopp x) /\ fleb (of_int 0) (math_abs x) = true /\ math_abs (fopp x) = math_abs x.
Proof.
  intros x X. rewrite of_int_0. destruct x as [s|s| |s m e]; [| |congruence|]; (split; [destruct s; auto | split; reflexivity]).
Qed.
(** REFUTED: that the order of the arguments does not matter for what is no number.  The second
    argument is returned. *)
Theorem C174_nan_refuted : forall y, math_max S754_nan y = y /\ math_min S754_nan y = y /\ math_max y S754_nan = S754_nan /\ math_min y S754_nan = S754_nan.
Proof. intros y. repeat split; destruct y; reflexivity. Qed.
(** REFUTED: that it does not matter for the two zeros: of +0 and -0 the second is the maximum
    and the minimum, and dividing by the result tells which. *)
Theorem C174_zero_refuted : forall s t, math_max (S754_zero s) (S754_zero t) = S754_zero t /\ math_min (S754_zero s) (S754_zero t) = S754_zero t /\
  fdiv fone (math_max (S754_zero s) (S754_zero t)) = S754_infinity t.
Proof. intros s t. repeat split; destruct s, t; reflexivity. Qed.

(** ** C175: pow, sin and cos *)

(** Whole numbers below 2^24 reach powf, sinf and cosf unchanged.  Missing: what these
    compute. *)
Theorem C175_arguments_partial : forall z, Z.abs z < 2 ^ 24 -> widen (narrow (of_int z)) = of_int z.
Proof. apply narrow_int. Qed.
(** REFUTED: that all numbers do.  From 2^24 on every fourth whole number has the powers, the
    sine and the cosine of its predecessor, whatever powf, sinf and cosf compute. *)
Theorem C175_precision_refuted : forall j, 2 ^ 22 <= j < 2 ^ 23 ->
  of_int (4 * j + 1) <> of_int (4 * j) /\
  (forall powf y, math_pow powf (of_int (4 * j + 1)) y = math_pow powf (of_int (4 * j)) y) /\
  (forall powf x, math_pow powf x (of_int (4 * j + 1)) = math_pow powf x (of_int (4 * j))) /\
  (forall f, math_circle f (of_int (4 * j + 1)) = math_circle f (of_int (4 * j))).
Proof.
  intros j J. split; [intros E; apply of_int_inj in E; unfold small; lia|]. pose proof (narrow_collide j J) as C.
  unfold math_pow, math_circle. rewrite C. auto.
Qed.

(** ** C176: random *)

(** The result is not less than zero and not greater than one. *)
Theorem C176_range : forall r, 0 <= r <= rand_max -> fleb (of_int 0) (math_random r) = true /\ fleb (math_random r) fone = true.
Proof.
  intros r R. destruct (random_value r R) as (A & [B|[B _]]); (split; [exact A|]); [apply ltb_leb, B | rewrite B; reflexivity].
Qed.
(** It is less than one for all but the last values of rand. *)
Theorem C176_below_one_partial : forall r, 0 <= r < 2 ^ 31 - 128 -> fltb (math_random r) fone = true.
Proof. intros r R. destruct (random_value r) as (_ & [B|[_ B]]); [unfold rand_max; lia | exact B | lia]. Qed.
(** REFUTED: that it is always less than one: the last 64 values of rand give one. *)
Theorem C176_one_refuted : forall r, rand_max - 63 <= r <= rand_max -> math_random r = fone /\ fltb (math_random r) fone = false.
Proof.
  intros r R. assert (E : math_random r = fone); [|rewrite E; split; reflexivity].
  assert (F : map (fun k => math_random (rand_max - Z.of_nat k)) (seq 0 64) = repeat fone 64) by (vm_compute; reflexivity).
  replace r with (rand_max - Z.of_nat (Z.to_nat (rand_max - r))) by lia. apply (repeat_spec 64). rewrite <- F.
  apply (in_map (fun k => math_random (rand_max - Z.of_nat k))), in_seq. lia.
Qed.

(** ** Cases *)
Example C174_case : math_max (of_int 3) (of_int (-5)) = of_int 3 /\ math_min (of_int 3) (of_int (-5)) = of_int (-5) /\ math_abs (of_int (-5)) = of_int 5
  /\ math_min (math_max (of_int 9) (of_int 1)) (of_int 6) = of_int 6 /\ number (of_int 3) /\ feqb (of_int 3) (of_int (-5)) = false.
Proof. repeat split; vm_compute; try reflexivity; discriminate. Qed.
Example C175_case : narrow (of_int 16777217) = narrow (of_int 16777216) /\ narrow (of_int 16777219) <> narrow (of_int 16777217)
  /\ widen (narrow (of_int (-16777215))) = of_int (-16777215) /\ narrow (of_int (2 ^ 140)) = S754_infinity false /\ (2 ^ 22 <= 4194304 < 2 ^ 23).
Proof. repeat split; vm_compute; try reflexivity; discriminate. Qed.
Example C176_case : math_random 0 = of_int 0 /\ math_random (2 ^ 30) = fdiv fone (of_int 2) /\ math_random rand_max = fone /\ math_random (rand_max - 64) <> fone
  /\ fltb (math_random (rand_max - 64)) fone = true /\ 0 <= 2 ^ 30 <= rand_max.
Proof. repeat split; vm_compute; try reflexivity; discriminate. Qed.

Print Assumptions C174_max.
Print Assumptions C174_min.
Print Assumptions C174_whole_numbers.
Print Assumptions C174_clamp.
Print Assumptions C174_order_of_arguments.
Print Assumptions C174_both_found.
Print Assumptions C174_abs.
Print Assumptions C174_nan_refuted.
Print Assumptions C174_zero_refuted.
Print Assumptions C175_arguments_partial.
Print Assumptions C175_precision_refuted.
Print Assumptions C176_range.
Print Assumptions C176_below_one_partial.
Print Assumptions C176_one_refuted.
