(** Doubles that hold integers: remainder and exact division agree with the integers
    as long as those are below 2^53. *)
From Coq Require Import ZArith Bool Lia.
From Verif Require Import FloatModel FloatProofs FloatBits.
Open Scope Z_scope.

Lemma pow_split a b : 0 <= a -> 0 <= b -> 2 ^ (a + b) = 2 ^ a * 2 ^ b.
Proof. intros. apply Z.pow_add_r; lia. Qed.

Lemma norm_scaled (s z : bool) t k : Zpos t < 2 ^ 53 -> canon_e t <= k <= 0 ->
  binary_normalize fprec femax (if s then - (Zpos t * 2 ^ (- k)) else Zpos t * 2 ^ (- k)) k z
  = S754_finite s (canon_m t) (canon_e t).
Proof.
  intros Ht Hk.
  assert (HP : 0 < 2 ^ (- k)) by (apply Z.pow_pos_nonneg; lia).
  destruct (Zpos t * 2 ^ (- k)) as [|m|m] eqn:E; try lia.
  assert (binary_round fprec femax s m k = S754_finite s (canon_m t) (canon_e t)) as R.
  { apply round_exact.
    - apply fexp_canon, Ht.
    - unfold femax, fprec. lia.
    - intros _. rewrite canon_m_Z, <- E by exact Ht.
      replace (- canon_e t) with (- k + (k - canon_e t)) by lia.
      rewrite pow_split by lia. lia.
    - intros Hle. assert (k = canon_e t) as -> by lia.
      rewrite canon_m_Z, <- E by exact Ht. replace (canon_e t - canon_e t) with 0 by lia. lia. }
  destruct s; simpl; exact R.
Qed.

Lemma of_int_sgn (s : bool) t : Zpos t < 2 ^ 53 ->
  of_int (if s then Zneg t else Zpos t) = S754_finite s (canon_m t) (canon_e t).
Proof. intros H. destruct s; [apply of_int_neg | apply of_int_pos]; exact H. Qed.

Lemma fmod_pos (s s' : bool) p q : Zpos p < 2 ^ 53 -> Zpos q < 2 ^ 53 ->
  fmod (of_int (if s then Zneg p else Zpos p)) (of_int (if s' then Zneg q else Zpos q))
  = match Zpos p mod Zpos q with
    | Zpos t => of_int (if s then Zneg t else Zpos t)
    | _ => S754_zero s
    end.
Proof.
  intros Hp Hq. rewrite !of_int_sgn by assumption. unfold fmod.
  pose proof (canon_e_range p Hp) as Rp. pose proof (canon_e_range q Hq) as Rq.
  set (k := Z.min (canon_e p) (canon_e q)).
  assert (HP : 0 < 2 ^ (- k)) by (apply Z.pow_pos_nonneg; unfold k; lia).
  assert (Ep : Zpos (canon_m p) * 2 ^ (canon_e p - k) = Zpos p * 2 ^ (- k)).
  { rewrite canon_m_Z by exact Hp.
    replace (- k) with (- canon_e p + (canon_e p - k)) by lia.
    rewrite pow_split by (unfold k; lia). lia. }
  assert (Eq : Zpos (canon_m q) * 2 ^ (canon_e q - k) = Zpos q * 2 ^ (- k)).
  { rewrite canon_m_Z by exact Hq.
    replace (- k) with (- canon_e q + (canon_e q - k)) by lia.
    rewrite pow_split by (unfold k; lia). lia. }
  rewrite Ep, Eq, Z.mul_mod_distr_r by lia.
  pose proof (Z.mod_pos_bound (Zpos p) (Zpos q) ltac:(lia)) as HB.
  pose proof (Z.mod_le (Zpos p) (Zpos q) ltac:(lia) ltac:(lia)) as HL.
  destruct (Zpos p mod Zpos q) as [|t|t] eqn:T; [reflexivity| |lia].
  assert ((Zpos t * 2 ^ (- k) =? 0) = false) as -> by lia.
  assert (Ht : Zpos t < 2 ^ 53) by lia.
  rewrite of_int_sgn by exact Ht.
  apply norm_scaled; [exact Ht|].
  pose proof (digits_mono t q ltac:(lia)).
  unfold k, canon_e in *. pose proof (digits_mono t p HL). lia.
Qed.

Definition small (z : Z) : Prop := Z.abs z < 2 ^ 53.

Lemma fmod_int a b : small a -> small b -> b <> 0 ->
  fmod (of_int a) (of_int b)
  = if Z.rem a b =? 0 then S754_zero (a <? 0) else of_int (Z.rem a b).
Proof.
  unfold small. intros Ha Hb Hb0.
  destruct a as [|p|p].
  - rewrite Z.rem_0_l by exact Hb0. rewrite of_int_0.
    destruct b as [|q|q]; [lia| |].
    + rewrite (of_int_pos q) by lia. reflexivity.
    + rewrite (of_int_neg q) by lia. reflexivity.
  - destruct b as [|q|q]; [lia| |].
    + rewrite (fmod_pos false false p q) by lia. rewrite Z.rem_mod_nonneg by lia.
      pose proof (Z.mod_pos_bound (Zpos p) (Zpos q) ltac:(lia)).
      destruct (Zpos p mod Zpos q); try reflexivity. lia.
    + rewrite (fmod_pos false true p q) by lia.
      replace (Zneg q) with (- Zpos q) by lia. rewrite Z.rem_opp_r by lia. rewrite Z.rem_mod_nonneg by lia.
      pose proof (Z.mod_pos_bound (Zpos p) (Zpos q) ltac:(lia)).
      destruct (Zpos p mod Zpos q); try reflexivity. lia.
  - replace (Zneg p) with (- Zpos p) by lia.
    destruct b as [|q|q]; [lia| |].
    + pose proof (fmod_pos true false p q ltac:(lia) ltac:(lia)) as E. cbn [Z.opp] in E |- *. rewrite E.
      change (Zneg p) with (- Zpos p). rewrite Z.rem_opp_l by lia. rewrite Z.rem_mod_nonneg by lia.
      pose proof (Z.mod_pos_bound (Zpos p) (Zpos q) ltac:(lia)).
      destruct (Zpos p mod Zpos q); try reflexivity. lia.
    + pose proof (fmod_pos true true p q ltac:(lia) ltac:(lia)) as E. cbn [Z.opp] in E |- *. rewrite E.
      change (Zneg p) with (- Zpos p). change (Zneg q) with (- Zpos q).
      rewrite Z.rem_opp_l, Z.rem_opp_r by lia. rewrite Z.rem_mod_nonneg by lia.
      pose proof (Z.mod_pos_bound (Zpos p) (Zpos q) ltac:(lia)).
      destruct (Zpos p mod Zpos q); try reflexivity. lia.
Qed.

Lemma digits_mul_le q b p : Zpos p = Zpos q * Zpos b ->
  Zpos (digits2_pos p) <= Zpos (digits2_pos q) + Zpos (digits2_pos b).
Proof.
  intros E. apply digits_le; [lia|]. rewrite pow_split by lia. rewrite E.
  pose proof (digits_bounds q). pose proof (digits_bounds b). nia.
Qed.

Lemma fdiv_pos (s s' : bool) p q b : Zpos p = Zpos q * Zpos b -> Zpos p < 2 ^ 53 ->
  fdiv (of_int (if s then Zneg p else Zpos p)) (of_int (if s' then Zneg b else Zpos b))
  = of_int (if xorb s s' then Zneg q else Zpos q).
Proof.
  intros E Hp.
  assert (Hq : Zpos q < 2 ^ 53) by nia. assert (Hb : Zpos b < 2 ^ 53) by nia.
  rewrite !of_int_sgn by assumption.
  unfold fdiv, SFdiv, SFdiv_core_binary. cbn [Zdigits2].
  rewrite !canon_digits by assumption.
  pose proof (canon_e_range p Hp) as Rp. pose proof (canon_e_range b Hb) as Rb.
  pose proof (canon_e_range q Hq) as Rq.
  assert (EM : Z.min (fexp fprec femax (53 + canon_e p - (53 + canon_e b))) (canon_e p - canon_e b)
               = canon_e p - canon_e b - 53).
  { unfold fexp, emin, fprec, femax. lia. }
  rewrite EM. replace (canon_e p - canon_e b - (canon_e p - canon_e b - 53)) with 53 by lia.
  set (ez := canon_e p - canon_e b - 53).
  assert (HM : Z.shiftl (Zpos (canon_m p)) 53 = (Zpos q * 2 ^ (- ez)) * Zpos (canon_m b)).
  { rewrite Z.shiftl_mul_pow2 by lia. rewrite !canon_m_Z by assumption. rewrite E.
    assert (HE : 2 ^ (- canon_e p) * 2 ^ 53 = 2 ^ (- ez) * 2 ^ (- canon_e b)).
    { rewrite <- !pow_split by (unfold ez; lia). f_equal. unfold ez. lia. }
    replace (Zpos q * Zpos b * 2 ^ (- canon_e p) * 2 ^ 53)
      with (Zpos q * Zpos b * (2 ^ (- canon_e p) * 2 ^ 53)) by lia.
    rewrite HE.
    lia. }
  cbn match. rewrite HM.
  pose proof (Z_div_mod (Zpos q * 2 ^ (- ez) * Zpos (canon_m b)) (Zpos (canon_m b)) ltac:(lia)) as D.
  destruct (Z.div_eucl (Zpos q * 2 ^ (- ez) * Zpos (canon_m b)) (Zpos (canon_m b))) as [u r].
  destruct D as [D1 D2].
  destruct (Z.div_mod_unique (Zpos (canon_m b)) u (Zpos q * 2 ^ (- ez)) r 0) as [-> ->];
    [left; exact D2 | left; lia | lia |].
  assert (new_location (Zpos (canon_m b)) 0 = loc_Exact) as ->.
  { unfold new_location, new_location_even, new_location_odd. destruct (Z.even _); reflexivity. }
  assert (HP : 0 < 2 ^ (- ez)) by (apply Z.pow_pos_nonneg; unfold ez; lia).
  destruct (Zpos q * 2 ^ (- ez)) as [|m|m] eqn:EQ; try lia.
  assert (HD := digits_mul_le q b p E).
  rewrite (round_aux_exact (xorb s s') m ez (canon_m q) (canon_e q - ez)).
  - f_equal. lia.
  - rewrite <- EQ, canon_m_Z by exact Hq.
    replace (- ez) with (- canon_e q + (canon_e q - ez)) by lia.
    rewrite pow_split; [lia|lia|]. unfold ez, canon_e in *. lia.
  - unfold ez, canon_e in *. lia.
  - replace (ez + (canon_e q - ez)) with (canon_e q) by lia. apply fexp_canon, Hq.
  - unfold femax, fprec. lia.
Qed.

Lemma fdiv_int a b : small a -> small b -> b <> 0 -> (b | a) ->
  fdiv (of_int a) (of_int b) = if a =? 0 then S754_zero (b <? 0) else of_int (a / b).
Proof.
  unfold small. intros Ha Hb Hb0 [q Hq].
  destruct a as [|p|p].
  - rewrite of_int_0. destruct b as [|t|t]; [lia| |].
    + rewrite (of_int_pos t) by lia. reflexivity.
    + rewrite (of_int_neg t) by lia. reflexivity.
  - assert ((Zpos p =? 0) = false) as -> by reflexivity.
    rewrite Hq, Z.div_mul by exact Hb0.
    destruct b as [|t|t], q as [|u|u]; try lia.
    + pose proof (fdiv_pos false false p u t ltac:(lia) ltac:(lia)) as E. simpl xorb in E. rewrite <- Hq. exact E.
    + pose proof (fdiv_pos false true p u t ltac:(lia) ltac:(lia)) as E. simpl xorb in E. rewrite <- Hq. exact E.
  - assert ((Zneg p =? 0) = false) as -> by reflexivity.
    rewrite Hq, Z.div_mul by exact Hb0.
    destruct b as [|t|t], q as [|u|u]; try lia.
    + pose proof (fdiv_pos true false p u t ltac:(lia) ltac:(lia)) as E. simpl xorb in E. rewrite <- Hq. exact E.
    + pose proof (fdiv_pos true true p u t ltac:(lia) ltac:(lia)) as E. simpl xorb in E. rewrite <- Hq. exact E.
Qed.

Lemma of_int_valid z : small z -> valid (of_int z).
Proof.
  unfold small. intros H. destruct z as [|p|p].
  - reflexivity.
  - rewrite of_int_pos by lia. apply finite_valid. left.
    pose proof (canon_e_range p ltac:(lia)). pose proof (digits_bounds (canon_m p)) as B.
    rewrite canon_digits in B by lia. lia.
  - rewrite of_int_neg by lia. apply finite_valid. left.
    pose proof (canon_e_range p ltac:(lia)). pose proof (digits_bounds (canon_m p)) as B.
    rewrite canon_digits in B by lia. lia.
Qed.

Lemma of_int_inj x y : small x -> small y -> of_int x = of_int y -> x = y.
Proof.
  assert (H : forall p q, Zpos p < 2 ^ 53 -> Zpos q < 2 ^ 53 ->
    canon_m p = canon_m q -> canon_e p = canon_e q -> p = q).
  { intros p q Hp Hq E1 E2. pose proof (canon_m_Z p Hp) as A. pose proof (canon_m_Z q Hq) as B.
    rewrite E1, E2 in A. rewrite A in B.
    assert (0 < 2 ^ (- canon_e q)).
    { apply Z.pow_pos_nonneg; [lia|]. pose proof (canon_e_range q Hq). lia. }
    nia. }
  unfold small. intros Hx Hy E.
  destruct x as [|p|p], y as [|q|q]; try reflexivity;
    rewrite ?of_int_0, ?of_int_pos, ?of_int_neg in E by lia; try discriminate.
  - injection E as E1 E2. f_equal. apply H; auto; lia.
  - injection E as E1 E2. f_equal. apply H; auto; lia.
Qed.
