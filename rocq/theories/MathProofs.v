(** Facts for [MathProps]: the order of doubles, whole numbers, and rounding to binary32. *)
From Coq Require Import ZArith Bool Lia.
From Verif Require Import FloatModel FloatProofs FloatInt MathModel.
Local Open Scope Z_scope.

(** *** Order *)
Lemma compare_some x y : x <> S754_nan -> y <> S754_nan -> exists c, SFcompare x y = Some c.
Proof.
  intros X Y. destruct x as [s|s| |s m e]; [..|congruence|]; (destruct y as [s'|s'| |s' m' e']; [..|congruence|]); cbn [SFcompare]; eauto;
    destruct s; eauto; destruct s'; eauto; destruct (Z.compare e e'); eauto.
Qed.
Lemma leb_refl x : x <> S754_nan -> fleb x x = true.
Proof. intros X. pose proof (feqb_refl x X) as H. unfold feqb, SFeqb in H. unfold fleb, SFleb. destruct (SFcompare x x) as [[]|]; try discriminate; reflexivity. Qed.
Lemma ltb_leb x y : fltb x y = true -> fleb x y = true.
Proof. unfold fltb, SFltb, fleb, SFleb. destruct (SFcompare x y) as [[]|]; try discriminate; reflexivity. Qed.
Lemma not_ltb_leb x y : x <> S754_nan -> y <> S754_nan -> fltb x y = false -> fleb y x = true.
Proof.
  intros X Y. unfold fltb, SFltb, fleb, SFleb. rewrite (SFcompare_swap x y). destruct (compare_some x y X Y) as (c & ->). destruct c; try discriminate; reflexivity.
Qed.

(** *** Whole numbers *)
Lemma canon_compare p q : Zpos p < 2 ^ 53 -> Zpos q < 2 ^ 53 ->
  match canon_e p ?= canon_e q with Lt => Lt | Gt => Gt | Eq => Pos.compare_cont Eq (canon_m p) (canon_m q) end = (Zpos p ?= Zpos q).
Proof.
  intros P Q. unfold canon_e. destruct (Z.compare_spec (Zpos (digits2_pos p) - 53) (Zpos (digits2_pos q) - 53)) as [E|E|E].
  - change (Pos.compare_cont Eq (canon_m p) (canon_m q)) with (Zpos (canon_m p) ?= Zpos (canon_m q)). rewrite !canon_m_Z by assumption. unfold canon_e. rewrite E.
    pose proof (digits_le q 53 ltac:(lia) Q). symmetry. apply Zmult_compare_compat_r. apply Z.lt_gt, Z.pow_pos_nonneg; lia.
  - symmetry. apply Z.compare_lt_iff. destruct (Z_lt_ge_dec (Zpos p) (Zpos q)) as [L|G]; [exact L|]. pose proof (digits_mono q p ltac:(lia)). lia.
  - symmetry. apply Z.compare_gt_iff. destruct (Z_lt_ge_dec (Zpos q) (Zpos p)) as [L|G]; [exact L|]. pose proof (digits_mono p q ltac:(lia)). lia.
Qed.
Lemma of_int_compare a b : small a -> small b -> SFcompare (of_int a) (of_int b) = Some (a ?= b).
Proof.
  unfold small. intros A B. destruct a as [|p|p], b as [|q|q]; rewrite ?of_int_0; rewrite ?of_int_pos, ?of_int_neg by lia; try reflexivity; cbn [SFcompare].
  - rewrite (canon_compare p q) by lia. reflexivity.
  - f_equal. change (Zneg p ?= Zneg q) with (CompOpp (Zpos p ?= Zpos q)). rewrite <- (canon_compare p q) by lia.
    destruct (canon_e p ?= canon_e q); reflexivity.
Qed.
Lemma of_int_not_nan z : small z -> of_int z <> S754_nan.
Proof. unfold small. intros H. destruct z as [|p|p]; [rewrite of_int_0 | rewrite of_int_pos by lia | rewrite of_int_neg by lia]; discriminate. Qed.

(** *** Rounding does nothing to a number that fits, for any format *)
Section Round.
Variable prec emax : Z.
Lemma round_aux_fits s m e p k : Zpos m = Zpos p * 2 ^ k -> 0 <= k -> fexp prec emax (Zpos (digits2_pos p) + (e + k)) = e + k -> e + k <= emax - prec ->
  binary_round_aux prec emax s (Zpos m) e loc_Exact = S754_finite s p (e + k).
Proof.
  intros E Hk Hf Hb. unfold binary_round_aux, shr_fexp. cbn [shr_record_of_loc Zdigits2]. rewrite (digits_mul_pow p m k Hk E).
  replace (Zpos (digits2_pos p) + k + e) with (Zpos (digits2_pos p) + (e + k)) by lia. rewrite Hf. replace (e + k - e) with k by lia. rewrite E, shr_exact by lia.
  cbn [shr_m loc_of_shr_record round_nearest_even]. cbn [shr_record_of_loc Zdigits2]. rewrite Hf. replace (e + k - (e + k)) with 0 by lia. cbn [shr shr_m].
  assert (Zle_bool (e + k) (emax - prec) = true) as -> by (apply Z.leb_le; exact Hb). reflexivity.
Qed.
Lemma round_fits s m e p e' : fexp prec emax (Zpos (digits2_pos p) + e') = e' -> e' <= emax - prec ->
  (e' <= e -> Zpos p = Zpos m * 2 ^ (e - e')) -> (e <= e' -> Zpos m = Zpos p * 2 ^ (e' - e)) -> binary_round prec emax s m e = S754_finite s p e'.
Proof.
  intros Hf Hb H1 H2. unfold binary_round, shl_align. destruct (Z_le_gt_dec e' e) as [Hle|Hgt].
  - specialize (H1 Hle). pose proof (digits_mul_pow m p (e - e') ltac:(lia) H1) as Hd. replace (Zpos (digits2_pos m) + e) with (Zpos (digits2_pos p) + e') by lia.
    rewrite Hf. destruct (e' - e) as [|d|d] eqn:E.
    + assert (e = e') by lia. subst e'. replace (e - e) with 0 in H1 by lia. rewrite (round_aux_fits s m e p 0); try lia; [f_equal; lia | replace (e + 0) with e by lia; exact Hf].
    + lia.
    + rewrite (round_aux_fits s (shift_pos d m) e' p 0); try lia; [f_equal; lia | rewrite shift_pos_Z; replace (Zpos d) with (e - e') by lia; lia | replace (e' + 0) with e' by lia; exact Hf].
  - specialize (H2 ltac:(lia)). pose proof (digits_mul_pow p m (e' - e) ltac:(lia) H2) as Hd. replace (Zpos (digits2_pos m) + e) with (Zpos (digits2_pos p) + e') by lia.
    rewrite Hf. destruct (e' - e) as [|d|d] eqn:E; [lia| |lia]. rewrite (round_aux_fits s m e p (e' - e)); [f_equal; lia | rewrite E; exact H2 | lia | replace (e + (e' - e)) with e' by lia; exact Hf | lia].
Qed.
End Round.

(** *** Rounding to binary32 *)
Definition single_m (p : positive) : positive := Z.to_pos (Zpos p * 2 ^ (24 - Zpos (digits2_pos p))).
Definition single_e (p : positive) : Z := Zpos (digits2_pos p) - 24.
Lemma single_facts p : Zpos p < 2 ^ 24 -> Zpos (single_m p) = Zpos p * 2 ^ (- single_e p) /\ -23 <= single_e p <= 0 /\ Zpos (digits2_pos (single_m p)) = 24.
Proof.
  intros P. pose proof (digits_le p 24 ltac:(lia) P) as D. assert (0 < 2 ^ (24 - Zpos (digits2_pos p))) by (apply Z.pow_pos_nonneg; lia).
  assert (E : Zpos (single_m p) = Zpos p * 2 ^ (- single_e p)) by (unfold single_m, single_e; rewrite Z2Pos.id by lia; do 2 f_equal; lia).
  split; [exact E|]. split; [unfold single_e; lia|]. rewrite (digits_mul_pow p (single_m p) (- single_e p)); [unfold single_e; lia | unfold single_e; lia | exact E].
Qed.
Lemma narrow_canon s p : Zpos p < 2 ^ 24 -> narrow (S754_finite s (canon_m p) (canon_e p)) = S754_finite s (single_m p) (single_e p).
Proof.
  intros P. destruct (single_facts p P) as (E & R & D). pose proof (canon_m_Z p ltac:(lia)) as C. pose proof (canon_e_range p ltac:(lia)) as CE. cbn [narrow]. apply round_fits.
  - rewrite D. unfold fexp, emin. lia.
  - lia.
  - unfold single_e, canon_e in *. lia.
  - intros _. rewrite C, E, <- Z.mul_assoc. f_equal. rewrite <- Z.pow_add_r by (unfold single_e, canon_e in *; lia). f_equal. lia.
Qed.
Lemma widen_single s p : Zpos p < 2 ^ 24 -> widen (S754_finite s (single_m p) (single_e p)) = S754_finite s (canon_m p) (canon_e p).
Proof.
  intros P. destruct (single_facts p P) as (E & R & D). pose proof (canon_m_Z p ltac:(lia)) as C. pose proof (canon_e_range p ltac:(lia)) as CE. cbn [widen]. apply round_fits.
  - apply fexp_canon. lia.
  - unfold femax, fprec. lia.
  - intros _. rewrite C, E, <- Z.mul_assoc. f_equal. rewrite <- Z.pow_add_r by (unfold single_e, canon_e in *; lia). f_equal. lia.
  - unfold single_e, canon_e in *. lia.
Qed.
Lemma narrow_int z : Z.abs z < 2 ^ 24 -> widen (narrow (of_int z)) = of_int z.
Proof.
  intros H. destruct z as [|p|p]; [reflexivity | rewrite of_int_pos by lia | rewrite of_int_neg by lia]; rewrite narrow_canon, widen_single by lia; reflexivity.
Qed.

(** An odd number of 25 digits is rounded to its even neighbour. *)
Lemma narrow_odd s p j : Zpos p = 4 * j + 1 -> 2 ^ 24 <= Zpos p < 2 ^ 25 -> narrow (S754_finite s (canon_m p) (canon_e p)) = S754_finite s (Z.to_pos (2 * j)) 1.
Proof.
  intros E R. assert (D : Zpos (digits2_pos p) = 25) by (apply digits_unique; [lia | exact R]). pose proof (canon_m_Z p ltac:(lia)) as C. pose proof (canon_digits p ltac:(lia)) as CD.
  assert (CE : canon_e p = -28) by (unfold canon_e; lia). rewrite CE in *. cbn [narrow]. unfold binary_round. rewrite CD. change (fexp 24 128 (53 + -28)) with 1. cbn [shl_align Z.sub Z.opp Z.add].
  change (shl_align (canon_m p) (-28) 1) with (canon_m p, -28). unfold binary_round_aux at 1. unfold shr_fexp at 1. cbn [Zdigits2]. rewrite CD. change (fexp 24 128 (53 + -28) - -28) with (Z.of_nat 29). cbn [shr_record_of_loc].
  rewrite C. change (- -28) with (Z.of_nat 28).
  assert (S : shr (Build_shr_record (Zpos p * 2 ^ Z.of_nat 28) false false) (-28) (Z.of_nat 29) = (Build_shr_record (2 * j) true false, 1)).
  { change (shr (Build_shr_record (Zpos p * 2 ^ Z.of_nat 28) false false) (-28) (Z.of_nat 29)) with (iter_pos shr_1 29 (Build_shr_record (Zpos p * 2 ^ Z.of_nat 28) false false), 1). f_equal.
    rewrite iter_pos_nat. change (Pos.to_nat 29) with (S 28).
    change (shr_1 (Nat.iter 28 shr_1 (Build_shr_record (Zpos p * 2 ^ Z.of_nat 28) false false)) = Build_shr_record (2 * j) true false). rewrite shr_exact_nat by lia.
    destruct p as [q|q|]; try lia. cbn [shr_1 orb]. f_equal. lia. }
  rewrite S. cbn [shr_m loc_of_shr_record round_nearest_even]. assert (Z.even (2 * j) = true) as -> by (rewrite Z.even_mul; reflexivity).
  destruct (2 * j) as [|q|q] eqn:J; try lia. unfold shr_fexp. cbn [Zdigits2 shr_record_of_loc Z.to_pos]. assert (Zpos (digits2_pos q) = 24) as -> by (apply digits_unique; lia).
  change (fexp 24 128 (24 + 1) - 1) with 0. cbn [shr shr_m]. reflexivity.
Qed.
Lemma narrow_even s p j : Zpos p = 4 * j -> 2 ^ 24 <= Zpos p < 2 ^ 25 -> narrow (S754_finite s (canon_m p) (canon_e p)) = S754_finite s (Z.to_pos (2 * j)) 1.
Proof.
  intros E R. assert (D : Zpos (digits2_pos p) = 25) by (apply digits_unique; [lia | exact R]). pose proof (canon_m_Z p ltac:(lia)) as C.
  assert (CE : canon_e p = -28) by (unfold canon_e; lia). rewrite CE in *. cbn [narrow]. apply round_fits.
  - assert (Zpos (digits2_pos (Z.to_pos (2 * j))) = 24) as -> by (apply digits_unique; rewrite ?Z2Pos.id by lia; lia). reflexivity.
  - lia.
  - lia.
  - intros _. rewrite C, Z2Pos.id, E by lia. change (- -28) with 28. change (1 - -28) with 29. lia.
Qed.
Lemma narrow_collide j : 2 ^ 22 <= j < 2 ^ 23 -> narrow (of_int (4 * j + 1)) = narrow (of_int (4 * j)).
Proof.
  intros J. destruct (4 * j) as [|p|p] eqn:E; try lia. destruct (Zpos p + 1) as [|q|q] eqn:F; try lia. rewrite !of_int_pos by lia.
  rewrite (narrow_odd false q j) by lia. rewrite (narrow_even false p j) by lia. reflexivity.
Qed.

(** *** Rounding any whole number of up to 31 digits to binary32 *)
Lemma shr_1_div z b s : 0 <= z -> exists b' s', shr_1 (Build_shr_record z b s) = Build_shr_record (z / 2) b' s'.
Proof.
  intros Z0. destruct z as [|p|p]; [exists false, (b || s)%bool; reflexivity | | lia]. destruct p as [p|p|]; cbn [shr_1].
  - exists true, (b || s)%bool. f_equal. rewrite Pos2Z.inj_xI. apply (Z.div_unique (2 * Zpos p + 1) 2 (Zpos p) 1); lia.
  - exists false, (b || s)%bool. f_equal. rewrite Pos2Z.inj_xO. apply (Z.div_unique (2 * Zpos p) 2 (Zpos p) 0); lia.
  - exists true, (b || s)%bool. reflexivity.
Qed.
Lemma shr_iter_div n : forall z, 0 <= z -> exists b s, Nat.iter n shr_1 (Build_shr_record z false false) = Build_shr_record (z / 2 ^ Z.of_nat n) b s.
Proof.
  induction n as [|n IH]; intros z Z0; [exists false, false; cbn; rewrite Z.div_1_r; reflexivity|]. destruct (IH z Z0) as (b & s & H).
  change (Nat.iter (S n) shr_1 (Build_shr_record z false false)) with (shr_1 (Nat.iter n shr_1 (Build_shr_record z false false))). rewrite H.
  assert (P : 0 < 2 ^ Z.of_nat n) by (apply Z.pow_pos_nonneg; lia). destruct (shr_1_div (z / 2 ^ Z.of_nat n) b s) as (b' & s' & ->); [apply Z.div_pos; lia|]. exists b', s'. f_equal.
  rewrite Z.div_div by lia. f_equal. rewrite Nat2Z.inj_succ, Z.pow_succ_r by lia. lia.
Qed.
Lemma round_near z l : 0 <= z -> round_nearest_even z l = z \/ round_nearest_even z l = z + 1.
Proof. intros Z0. destruct l as [|[]]; cbn; auto. destruct (Z.even z); auto. Qed.
Lemma single_shape p : Zpos p < 2 ^ 31 -> exists m e, single_of_int (Zpos p) = S754_finite false m e /\ Zpos (digits2_pos m) = 24 /\ -23 <= e /\
  (e <= 7 \/ (e = 8 /\ Zpos m = 2 ^ 23 /\ 2 ^ 31 - 128 <= Zpos p)).
Proof.
  intros P. unfold single_of_int, binary_normalize. destruct (Z_lt_ge_dec (Zpos p) (2 ^ 24)) as [S|S].
  { destruct (single_facts p S) as (E & R & D). exists (single_m p), (single_e p). split; [|split; [exact D|]; split; [lia | left; lia]]. apply round_fits.
    - rewrite D. unfold fexp, emin. lia.
    - lia.
    - intros _. rewrite E. do 2 f_equal; lia.
    - intros H. assert (Z0 : single_e p = 0) by lia. rewrite E, Z0. cbn. lia. }
  pose proof (digits_bounds p) as [B1 B2]. pose proof (digits_le p 31 ltac:(lia) P) as D1.
  assert (D2 : 25 <= Zpos (digits2_pos p)). { destruct (Z_lt_ge_dec (Zpos (digits2_pos p)) 25); [|lia]. assert (2 ^ Zpos (digits2_pos p) <= 2 ^ 24) by (apply Z.pow_le_mono_r; lia). lia. }
  set (d := Zpos (digits2_pos p)) in *. set (k := d - 24). assert (K : 0 < k <= 7) by (unfold k; lia).
  unfold binary_round. fold d. assert (F : fexp 24 128 (d + 0) = k) by (unfold fexp, emin, k; lia). rewrite F. unfold shl_align. replace (k - 0) with k by lia.
  assert (A : match k with Zneg d0 => (shift_pos d0 p, k) | _ => (p, 0) end = (p, 0)) by (destruct k; try reflexivity; lia). rewrite A.
  unfold binary_round_aux, shr_fexp at 1. cbn [Zdigits2]. fold d. rewrite F. cbn [shr_record_of_loc]. replace (k - 0) with k by lia.
  assert (SH : exists b s, shr (Build_shr_record (Zpos p) false false) 0 k = (Build_shr_record (Zpos p / 2 ^ k) b s, k)).
  { destruct k as [|k'|k'] eqn:EK; try lia. cbn [shr]. rewrite iter_pos_nat. destruct (shr_iter_div (Pos.to_nat k') (Zpos p)) as (b & s & ->); [lia|]. rewrite positive_nat_Z. exists b, s. reflexivity. }
  destruct SH as (b & s & ->). cbn [shr_m].
  assert (PK : 0 < 2 ^ k) by (apply Z.pow_pos_nonneg; lia).
  assert (Q : 2 ^ 23 <= Zpos p / 2 ^ k < 2 ^ 24).
  { split; [apply Z.div_le_lower_bound; [lia|] | apply Z.div_lt_upper_bound; [lia|]]; rewrite <- Z.pow_add_r by lia; [replace (k + 23) with (d - 1) by (unfold k; lia) | replace (k + 24) with d by (unfold k; lia)]; lia. }
  assert (Q' : exists q, round_nearest_even (Zpos p / 2 ^ k) (loc_of_shr_record (Build_shr_record (Zpos p / 2 ^ k) b s)) = Zpos q /\ 2 ^ 23 <= Zpos q <= 2 ^ 24 /\ (Zpos q = 2 ^ 24 -> Zpos p / 2 ^ k = 2 ^ 24 - 1)).
  { destruct (round_near (Zpos p / 2 ^ k) (loc_of_shr_record (Build_shr_record (Zpos p / 2 ^ k) b s)) ltac:(lia)) as [-> | ->].
    - destruct (Zpos p / 2 ^ k) as [|q|q]; try lia. exists q. split; [reflexivity|]. lia.
    - destruct (Zpos p / 2 ^ k + 1) as [|q|q] eqn:E; try lia. exists q. split; [reflexivity|]. lia. }
  destruct Q' as (q & -> & Q1 & Q2). unfold shr_fexp. cbn [Zdigits2 shr_record_of_loc].
  destruct (Z.eq_dec (Zpos q) (2 ^ 24)) as [E|E].
  - assert (Zpos (digits2_pos q) = 25) as -> by (apply digits_unique; lia). assert (fexp 24 128 (25 + k) - k = 1) as -> by (unfold fexp, emin; lia). cbn [shr iter_pos].
    assert (q = 16777216)%positive by lia. subst q. cbn [shr_1 shr_m orb]. assert (Zle_bool (k + 1) (128 - 24) = true) as -> by (apply Z.leb_le; lia).
    eexists _, (k + 1). split; [reflexivity|]. split; [reflexivity|]. split; [lia|]. destruct (Z.eq_dec k 7) as [K7|K7]; [right | left; lia]. split; [lia|]. split; [reflexivity|].
    specialize (Q2 E). rewrite K7 in Q2. pose proof (Z.mul_div_le (Zpos p) (2 ^ 7) ltac:(lia)). rewrite Q2 in H. lia.
  - assert (DQ : Zpos (digits2_pos q) = 24) by (apply digits_unique; lia). rewrite DQ. assert (fexp 24 128 (24 + k) - k = 0) as -> by (unfold fexp, emin; lia). cbn [shr shr_m].
    assert (Zle_bool k (128 - 24) = true) as -> by (apply Z.leb_le; lia). exists q, k. split; [reflexivity|]. split; [exact DQ|]. split; [lia | left; lia].
Qed.

Lemma step_value : SFdiv 24 128 (single_of_int 1) (single_of_int rand_max) = S754_finite false 8388608 (-54).
Proof. vm_compute. reflexivity. Qed.
Lemma random_shape m e : Zpos (digits2_pos m) = 24 -> -23 <= e <= 8 ->
  widen (SFmul 24 128 (S754_finite false m e) (S754_finite false 8388608 (-54))) = S754_finite false (Z.to_pos (Zpos m * 2 ^ 29)) (e - 60).
Proof.
  intros D E. cbn [SFmul xorb]. rewrite (round_aux_fits 24 128 false (m * 8388608) (e + -54) m 23); [|lia|lia| |lia].
  2:{ rewrite D. unfold fexp, emin. lia. }
  cbn [widen]. assert (M : Zpos (Z.to_pos (Zpos m * 2 ^ 29)) = Zpos m * 2 ^ 29) by (apply Z2Pos.id; lia). apply round_fits.
  - rewrite (digits_mul_pow m _ 29 ltac:(lia) M), D. unfold fexp, emin, fprec, femax. lia.
  - unfold fprec, femax. lia.
  - intros _. rewrite M. f_equal. f_equal. lia.
  - lia.
Qed.
Lemma random_zero : math_random 0 = S754_zero false.
Proof. vm_compute. reflexivity. Qed.
Lemma fone_value : fone = S754_finite false 4503599627370496 (-52).
Proof. vm_compute. reflexivity. Qed.
Lemma random_value r : 0 <= r <= rand_max -> fleb (of_int 0) (math_random r) = true /\
  (fltb (math_random r) fone = true \/ (math_random r = fone /\ 2 ^ 31 - 128 <= r)).
Proof.
  intros R. unfold rand_max in R. destruct r as [|p|p]; [|clear -R | lia].
  - rewrite random_zero. split; [reflexivity | left; reflexivity].
  - destruct (single_shape p) as (m & e & S & D & E1 & E2); [lia|]. assert (math_random (Zpos p) = S754_finite false (Z.to_pos (Zpos m * 2 ^ 29)) (e - 60)) as ->.
    { unfold math_random. rewrite S, step_value. apply random_shape; [exact D | lia]. }
    split; [reflexivity|]. rewrite fone_value. destruct E2 as [E2|(-> & M & Q)].
    + left. unfold fltb, SFltb. cbn [SFcompare]. assert (e - 60 ?= -52 = Lt) as -> by (apply Z.compare_lt_iff; lia). reflexivity.
    + right. split; [|exact Q]. rewrite M. reflexivity.
Qed.
