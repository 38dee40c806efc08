(** Facts on the binary64 operations of [FloatModel]. *)
From Coq Require Import ZArith Bool Lia.
From Verif Require Import FloatModel.
Open Scope Z_scope.

(** *** Comparison *)
Lemma SFcompare_swap x y :
  SFcompare y x = match SFcompare x y with Some c => Some (CompOpp c) | None => None end.
Proof.
  assert (HP : forall p q, Pos.compare_cont Eq q p = CompOpp (Pos.compare_cont Eq p q))
    by (intros; rewrite Pos.compare_cont_antisym; reflexivity).
  destruct x as [s|s| |s m e], y as [s'|s'| |s' m' e']; simpl;
    try reflexivity; try (destruct s; reflexivity); try (destruct s'; reflexivity);
    try (destruct s, s'; reflexivity).
  destruct s, s'; simpl; try reflexivity; rewrite (Z.compare_antisym e e');
    destruct (e ?= e'); simpl; try reflexivity;
    rewrite (HP m m'); destruct (Pos.compare_cont Eq m m'); reflexivity.
Qed.

Lemma feqb_sym x y : feqb x y = feqb y x.
Proof.
  unfold feqb, SFeqb. rewrite (SFcompare_swap x y).
  destruct (SFcompare x y) as [[]|]; reflexivity.
Qed.

Lemma feqb_refl x : x <> S754_nan -> feqb x x = true.
Proof.
  unfold feqb, SFeqb. destruct x as [s|s| |s m e]; intros H; simpl; try reflexivity.
  - destruct s; reflexivity.
  - now destruct H.
  - rewrite Z.compare_refl.
    assert (Pos.compare_cont Eq m m = Eq) as -> by (apply Pos.compare_cont_refl).
    destruct s; reflexivity.
Qed.

Lemma feqb_nan_l x : feqb S754_nan x = false.
Proof. reflexivity. Qed.

Lemma of_int_0 : of_int 0 = S754_zero false.
Proof. reflexivity. Qed.

Lemma feqb_zero x : feqb x (of_int 0) = true <-> exists s, x = S754_zero s.
Proof.
  rewrite of_int_0. split.
  - destruct x as [s|s| |s m e]; simpl; intros H; try discriminate;
      [exists s; reflexivity | ..]; destruct s; discriminate.
  - intros [s ->]. reflexivity.
Qed.

(** *** Binary digits *)
Lemma digits_bounds m :
  2 ^ (Zpos (digits2_pos m) - 1) <= Zpos m < 2 ^ Zpos (digits2_pos m).
Proof.
  induction m as [m IH|m IH|]; cbn [digits2_pos].
  - rewrite Pos2Z.inj_succ.
    replace (Z.succ (Zpos (digits2_pos m)) - 1) with (Z.succ (Zpos (digits2_pos m) - 1)) by lia.
    rewrite !Z.pow_succ_r by lia. lia.
  - rewrite Pos2Z.inj_succ.
    replace (Z.succ (Zpos (digits2_pos m)) - 1) with (Z.succ (Zpos (digits2_pos m) - 1)) by lia.
    rewrite !Z.pow_succ_r by lia. lia.
  - split; [reflexivity|]. reflexivity.
Qed.

Lemma digits_unique m d : 0 < d -> 2 ^ (d - 1) <= Zpos m < 2 ^ d -> Zpos (digits2_pos m) = d.
Proof.
  intros Hd [H1 H2]. pose proof (digits_bounds m) as [B1 B2].
  assert (Zpos (digits2_pos m) - 1 < d).
  { apply (Z.pow_lt_mono_r_iff 2); lia. }
  assert (d - 1 < Zpos (digits2_pos m)).
  { apply (Z.pow_lt_mono_r_iff 2); lia. }
  lia.
Qed.

Lemma digits_le m d : 0 <= d -> Zpos m < 2 ^ d -> Zpos (digits2_pos m) <= d.
Proof.
  intros Hd H2. pose proof (digits_bounds m) as [B1 B2].
  assert (Zpos (digits2_pos m) - 1 < d).
  { apply (Z.pow_lt_mono_r_iff 2); lia. }
  lia.
Qed.

Lemma digits_mul_pow m p k : 0 <= k -> Zpos p = Zpos m * 2 ^ k ->
  Zpos (digits2_pos p) = Zpos (digits2_pos m) + k.
Proof.
  intros Hk E. pose proof (digits_bounds m) as [B1 B2].
  apply digits_unique; [lia|]. rewrite E.
  replace (Zpos (digits2_pos m) + k - 1) with (Zpos (digits2_pos m) - 1 + k) by lia.
  rewrite !Z.pow_add_r by lia.
  assert (0 < 2 ^ k) by (apply Z.pow_pos_nonneg; lia). nia.
Qed.

Lemma digits_mono m p : Zpos m <= Zpos p -> Zpos (digits2_pos m) <= Zpos (digits2_pos p).
Proof.
  intros H. apply digits_le; [lia|]. pose proof (digits_bounds p). lia.
Qed.

(** *** Exact shifts *)
Lemma iter_pos_nat {A} (f : A -> A) n x : iter_pos f n x = Nat.iter (Pos.to_nat n) f x.
Proof.
  revert x. induction n as [n IH|n IH|]; intros x; cbn [iter_pos].
  - rewrite !IH. rewrite Pos2Nat.inj_xI.
    replace (S (2 * Pos.to_nat n))%nat with (Pos.to_nat n + (Pos.to_nat n + 1))%nat by lia.
    assert (HA : forall a b z, Nat.iter (a + b) f z = Nat.iter a f (Nat.iter b f z)).
    { intros a b z. induction a; simpl; congruence. }
    rewrite !HA. reflexivity.
  - rewrite !IH. rewrite Pos2Nat.inj_xO.
    assert (HA : forall a b z, Nat.iter (a + b) f z = Nat.iter a f (Nat.iter b f z)).
    { intros a b z. induction a; simpl; congruence. }
    replace (2 * Pos.to_nat n)%nat with (Pos.to_nat n + Pos.to_nat n)%nat by lia.
    rewrite HA. reflexivity.
  - reflexivity.
Qed.

Lemma shr_exact_nat n z : 0 <= z ->
  Nat.iter n shr_1 (Build_shr_record (z * 2 ^ Z.of_nat n) false false)
  = Build_shr_record z false false.
Proof.
  intros Hz. revert z Hz. induction n as [|n IH]; intros z Hz.
  - simpl. f_equal. lia.
  - rewrite Nat2Z.inj_succ, Z.pow_succ_r by lia.
    replace (z * (2 * 2 ^ Z.of_nat n)) with ((z * 2) * 2 ^ Z.of_nat n) by lia.
    change (shr_1 (Nat.iter n shr_1 (Build_shr_record (z * 2 * 2 ^ Z.of_nat n) false false))
            = Build_shr_record z false false).
    rewrite IH by lia. destruct z as [|p|p]; simpl; try reflexivity; try lia.
    f_equal. rewrite Pos.mul_comm. reflexivity.
Qed.

Lemma shr_exact z e n : 0 <= z -> 0 <= n ->
  shr (Build_shr_record (z * 2 ^ n) false false) e n = (Build_shr_record z false false, e + n).
Proof.
  intros Hz Hn. destruct n as [|p|p]; simpl shr.
  - f_equal; [f_equal|]; lia.
  - change (Z.pow_pos 2 p) with (2 ^ Zpos p). rewrite iter_pos_nat.
    rewrite <- (positive_nat_Z p) at 1. rewrite shr_exact_nat by lia. reflexivity.
  - lia.
Qed.

Definition efit (d e : Z) : Z := fexp fprec femax (d + e).

(** Rounding does nothing to a number that fits. *)
Lemma round_aux_exact s m e p k :
  Zpos m = Zpos p * 2 ^ k -> 0 <= k ->
  fexp fprec femax (Zpos (digits2_pos p) + (e + k)) = e + k ->
  e + k <= femax - fprec ->
  binary_round_aux fprec femax s (Zpos m) e loc_Exact = S754_finite s p (e + k).
Proof.
  intros E Hk Hf Hb. unfold binary_round_aux, shr_fexp.
  cbn [shr_record_of_loc Zdigits2].
  rewrite (digits_mul_pow p m k Hk E).
  replace (Zpos (digits2_pos p) + k + e) with (Zpos (digits2_pos p) + (e + k)) by lia.
  rewrite Hf. replace (e + k - e) with k by lia.
  rewrite E, shr_exact by lia.
  cbn [shr_m loc_of_shr_record round_nearest_even].
  cbn [shr_record_of_loc Zdigits2]. rewrite Hf.
  replace (e + k - (e + k)) with 0 by lia. cbn [shr shr_m].
  assert (Zle_bool (e + k) (femax - fprec) = true) as -> by (apply Z.leb_le; exact Hb).
  reflexivity.
Qed.

Lemma shift_pos_Z d m : Zpos (shift_pos d m) = Zpos m * 2 ^ Zpos d.
Proof. rewrite shift_pos_correct. rewrite Z.pow_pos_fold. lia. Qed.

Lemma round_exact s m e p e' :
  fexp fprec femax (Zpos (digits2_pos p) + e') = e' ->
  e' <= femax - fprec ->
  (e' <= e -> Zpos p = Zpos m * 2 ^ (e - e')) ->
  (e <= e' -> Zpos m = Zpos p * 2 ^ (e' - e)) ->
  binary_round fprec femax s m e = S754_finite s p e'.
Proof.
  intros Hf Hb H1 H2. unfold binary_round, shl_align.
  destruct (Z_le_gt_dec e' e) as [Hle|Hgt].
  - specialize (H1 Hle).
    pose proof (digits_mul_pow m p (e - e') ltac:(lia) H1) as Hd.
    replace (Zpos (digits2_pos m) + e) with (Zpos (digits2_pos p) + e') by lia.
    rewrite Hf. destruct (e' - e) as [|d|d] eqn:E.
    + assert (e = e') by lia. subst e'. replace (e - e) with 0 in H1 by lia.
      rewrite (round_aux_exact s m e p 0); try lia.
      * f_equal; lia.
      * replace (e + 0) with e by lia. exact Hf.
    + lia.
    + rewrite (round_aux_exact s (shift_pos d m) e' p 0); try lia.
      * f_equal; lia.
      * rewrite shift_pos_Z. replace (Zpos d) with (e - e') by lia. lia.
      * replace (e' + 0) with e' by lia. exact Hf.
  - specialize (H2 ltac:(lia)).
    pose proof (digits_mul_pow p m (e' - e) ltac:(lia) H2) as Hd.
    replace (Zpos (digits2_pos m) + e) with (Zpos (digits2_pos p) + e') by lia.
    rewrite Hf. destruct (e' - e) as [|d|d] eqn:E; [lia| |lia].
    rewrite (round_aux_exact s m e p (e' - e)).
    + f_equal. lia.
    + rewrite E. exact H2.
    + lia.
    + replace (e + (e' - e)) with e' by lia. exact Hf.
    + lia.
Qed.

(** The canonical form of a positive number below 2^53. *)
Definition canon_e (m : positive) : Z := Zpos (digits2_pos m) - 53.
Definition canon_m (m : positive) : positive := Z.to_pos (Zpos m * 2 ^ (53 - Zpos (digits2_pos m))).

Lemma canon_m_Z m : Zpos m < 2 ^ 53 -> Zpos (canon_m m) = Zpos m * 2 ^ (- canon_e m).
Proof.
  intros H. unfold canon_m, canon_e.
  pose proof (digits_le m 53 ltac:(lia) H).
  rewrite Z2Pos.id.
  - f_equal. f_equal. lia.
  - assert (0 < 2 ^ (53 - Zpos (digits2_pos m))) by (apply Z.pow_pos_nonneg; lia). lia.
Qed.

Lemma canon_e_range m : Zpos m < 2 ^ 53 -> -52 <= canon_e m <= 0.
Proof.
  intros H. unfold canon_e. pose proof (digits_le m 53 ltac:(lia) H). lia.
Qed.

Lemma canon_digits m : Zpos m < 2 ^ 53 -> Zpos (digits2_pos (canon_m m)) = 53.
Proof.
  intros H. pose proof (canon_e_range m H).
  rewrite (digits_mul_pow m (canon_m m) (- canon_e m)).
  - unfold canon_e. lia.
  - lia.
  - apply canon_m_Z, H.
Qed.

Lemma fexp_canon m : Zpos m < 2 ^ 53 ->
  fexp fprec femax (Zpos (digits2_pos (canon_m m)) + canon_e m) = canon_e m.
Proof.
  intros H. rewrite canon_digits by exact H. pose proof (canon_e_range m H).
  unfold fexp, emin, fprec, femax. lia.
Qed.

Lemma of_int_pos m : Zpos m < 2 ^ 53 -> of_int (Zpos m) = S754_finite false (canon_m m) (canon_e m).
Proof.
  intros H. pose proof (canon_e_range m H). unfold of_int, binary_normalize.
  apply round_exact.
  - apply fexp_canon, H.
  - unfold femax, fprec. lia.
  - intros _. rewrite canon_m_Z by exact H. f_equal.
  - intros Hle. assert (canon_e m = 0) as E by lia.
    rewrite canon_m_Z by exact H. rewrite E. simpl. lia.
Qed.
Lemma of_int_neg m : Zpos m < 2 ^ 53 -> of_int (Zneg m) = S754_finite true (canon_m m) (canon_e m).
Proof.
  intros H. pose proof (canon_e_range m H). unfold of_int, binary_normalize.
  apply round_exact.
  - apply fexp_canon, H.
  - unfold femax, fprec. lia.
  - intros _. rewrite canon_m_Z by exact H. f_equal.
  - intros Hle. assert (canon_e m = 0) as E by lia.
    rewrite canon_m_Z by exact H. rewrite E. simpl. lia.
Qed.
