(** Numbers through their texts: integers below 2^24 and multiples of 1/64. *)
From Coq Require Import List ZArith Bool Lia.
From Verif Require Import Base FloatModel FloatProofs FloatBits FloatInt StringModel StringProofs
  IntegerModel IntegerSpec IntegerProofs JsonModel.
Import ListNotations.
Open Scope Z_scope.

(** ** Rounding of numbers that fit, for any precision *)
Lemma round_aux_exact_g P E s m e p k :
  Zpos m = Zpos p * 2 ^ k -> 0 <= k ->
  fexp P E (Zpos (digits2_pos p) + (e + k)) = e + k ->
  e + k <= E - P ->
  binary_round_aux P E s (Zpos m) e loc_Exact = S754_finite s p (e + k).
Proof.
  intros Em Hk Hf Hb. unfold binary_round_aux, shr_fexp.
  cbn [shr_record_of_loc Zdigits2].
  rewrite (digits_mul_pow p m k Hk Em).
  replace (Zpos (digits2_pos p) + k + e) with (Zpos (digits2_pos p) + (e + k)) by lia.
  rewrite Hf. replace (e + k - e) with k by lia.
  rewrite Em, shr_exact by lia.
  cbn [shr_m loc_of_shr_record round_nearest_even].
  cbn [shr_record_of_loc Zdigits2]. rewrite Hf.
  replace (e + k - (e + k)) with 0 by lia. cbn [shr shr_m].
  assert (Zle_bool (e + k) (E - P) = true) as -> by (apply Z.leb_le; exact Hb).
  reflexivity.
Qed.

(** The quotient is [t / 2^k] exactly. *)
Lemma near32_exact s n d t k : Zpos n * 2 ^ k = Zpos t * Zpos d -> Zpos t < 2 ^ 24 -> 0 <= k <= 64 ->
  near32 s (Zpos n) (Zpos d)
  = S754_finite s (Z.to_pos (Zpos t * 2 ^ (24 - Zpos (digits2_pos t)))) (Zpos (digits2_pos t) - 24 - k).
Proof.
  intros E Ht Hk. unfold near32, SFdiv_core_binary. cbn [Zdigits2].
  pose proof (digits_bounds n) as Bn. pose proof (digits_bounds d) as Bd.
  pose proof (digits_le t 24 ltac:(lia) Ht) as Lt.
  assert (Hd : Zpos (digits2_pos n) <= Zpos (digits2_pos d) + 24 - k).
  { assert (Hlt : Zpos n * 2 ^ k < 2 ^ (24 + Zpos (digits2_pos d))).
    { rewrite E, pow_split by lia. assert (0 < 2 ^ 24) by lia. nia. }
    assert (Hlt2 : 2 ^ (Zpos (digits2_pos n) - 1 + k) < 2 ^ (24 + Zpos (digits2_pos d))).
    { rewrite pow_split by lia. assert (0 < 2 ^ k) by (apply Z.pow_pos_nonneg; lia). nia. }
    apply Z.pow_lt_mono_r_iff in Hlt2; lia. }
  set (e' := Z.min (fexp 24 128 (Zpos (digits2_pos n) + 0 - (Zpos (digits2_pos d) + 0))) (0 - 0)).
  assert (He : e' <= - k /\ -149 <= e' <= 0 /\ Zpos (digits2_pos n) - Zpos (digits2_pos d) - 24 <= e' \/
               e' <= - k /\ -149 <= e' <= 0 /\ e' = 0).
  { unfold e', fexp, emin. lia. }
  replace (0 - 0 - e') with (- e') by lia.
  assert (EM : match - e' with 0 => Zpos n | Zpos _ => Z.shiftl (Zpos n) (- e') | Zneg _ => 0 end = Zpos t * 2 ^ (- k - e') * Zpos d).
  { assert (EQ : Zpos n * 2 ^ (- e') = Zpos t * 2 ^ (- k - e') * Zpos d).
    { replace (- e') with (k + (- k - e')) at 1 by lia. rewrite pow_split by lia. rewrite Z.mul_assoc, E. lia. }
    destruct (- e') as [|x|x] eqn:X; [| |lia].
    - rewrite <- EQ. change (2 ^ 0) with 1. lia.
    - rewrite Z.shiftl_mul_pow2 by lia. exact EQ. }
  cbv zeta. rewrite EM.
  pose proof (Z_div_mod (Zpos t * 2 ^ (- k - e') * Zpos d) (Zpos d) ltac:(lia)) as D.
  destruct (Z.div_eucl (Zpos t * 2 ^ (- k - e') * Zpos d) (Zpos d)) as [u r].
  destruct D as [D1 D2].
  destruct (Z.div_mod_unique (Zpos d) u (Zpos t * 2 ^ (- k - e')) r 0) as [-> ->];
    [left; exact D2 | left; lia | lia |].
  assert (new_location (Zpos d) 0 = loc_Exact) as ->.
  { unfold new_location, new_location_even, new_location_odd. destruct (Z.even _); reflexivity. }
  assert (HP : 0 < 2 ^ (- k - e')) by (apply Z.pow_pos_nonneg; lia).
  destruct (Zpos t * 2 ^ (- k - e')) as [|m|m] eqn:EQ; try lia.
  set (dt := Zpos (digits2_pos t)) in *.
  assert (HP2 : 0 < 2 ^ (24 - dt)) by (apply Z.pow_pos_nonneg; unfold dt in *; lia).
  assert (Hp : Zpos (Z.to_pos (Zpos t * 2 ^ (24 - dt))) = Zpos t * 2 ^ (24 - dt)) by (apply Z2Pos.id; lia).
  assert (Hdp : Zpos (digits2_pos (Z.to_pos (Zpos t * 2 ^ (24 - dt)))) = 24).
  { rewrite (digits_mul_pow t _ (24 - dt)); unfold dt in *; lia. }
  assert (Hge : e' <= dt - 24 - k).
  { pose proof (digits_bounds t) as Bt. fold dt in Bt.
    assert (HU : Zpos n * 2 ^ k < 2 ^ (dt + Zpos (digits2_pos d))) by (rewrite E, pow_split by (unfold dt; lia); nia).
    assert (HL : 2 ^ (Zpos (digits2_pos n) - 1 + k) <= Zpos n * 2 ^ k).
    { rewrite pow_split by lia. assert (0 < 2 ^ k) by (apply Z.pow_pos_nonneg; lia). nia. }
    assert (H : 2 ^ (Zpos (digits2_pos n) - 1 + k) < 2 ^ (dt + Zpos (digits2_pos d))) by lia.
    apply Z.pow_lt_mono_r_iff in H; [|lia|unfold dt; lia].
    unfold e', fexp, emin in *. lia. }
  rewrite (round_aux_exact_g 24 128 s m e' (Z.to_pos (Zpos t * 2 ^ (24 - dt))) (dt - 24 - k - e')).
  - f_equal. lia.
  - rewrite <- EQ, Hp. rewrite <- Z.mul_assoc, <- pow_split; unfold dt in *; try lia. f_equal. f_equal. lia.
  - lia.
  - rewrite Hdp. unfold fexp, emin, dt in *. lia.
  - unfold dt in *. lia.
Qed.

(** Such a number as a double. *)
Definition dyad (s : bool) (t : positive) (k : Z) : f64 := S754_finite s (canon_m t) (canon_e t - k).
Lemma widen_exact s t k : Zpos t < 2 ^ 24 -> 0 <= k <= 64 ->
  widen (S754_finite s (Z.to_pos (Zpos t * 2 ^ (24 - Zpos (digits2_pos t)))) (Zpos (digits2_pos t) - 24 - k)) = dyad s t k.
Proof.
  intros Ht Hk. pose proof (digits_le t 24 ltac:(lia) Ht) as Lt.
  assert (Ht' : Zpos t < 2 ^ 53) by lia.
  set (dt := Zpos (digits2_pos t)) in *.
  assert (HP2 : 0 < 2 ^ (24 - dt)) by (apply Z.pow_pos_nonneg; unfold dt in *; lia).
  assert (Hp : Zpos (Z.to_pos (Zpos t * 2 ^ (24 - dt))) = Zpos t * 2 ^ (24 - dt)) by (apply Z2Pos.id; lia).
  assert (R : binary_round fprec femax s (Z.to_pos (Zpos t * 2 ^ (24 - dt))) (dt - 24 - k) = dyad s t k).
  { apply round_exact.
    - rewrite canon_digits by exact Ht'. unfold fexp, emin, fprec, femax, canon_e. fold dt. unfold dt in *. lia.
    - unfold fprec, femax, canon_e. fold dt. unfold dt in *. lia.
    - intros _. rewrite Hp, canon_m_Z by exact Ht'. unfold canon_e. fold dt.
      rewrite <- Z.mul_assoc, <- pow_split by (unfold dt in *; lia). f_equal. f_equal. lia.
    - unfold canon_e. fold dt. unfold dt in *. lia. }
  unfold widen, binary_normalize. destruct s; exact R.
Qed.

Lemma near32_dyad s n d t k : Zpos n * 2 ^ k = Zpos t * Zpos d -> Zpos t < 2 ^ 24 -> 0 <= k <= 64 ->
  match near32 s (Zpos n) (Zpos d) with S754_infinity _ => None | f => Some (widen f) end = Some (dyad s t k).
Proof. intros. rewrite (near32_exact s n d t k) by assumption. now rewrite widen_exact. Qed.

(** ** Digits *)
Lemma digs_writes l x : writes 10 l x -> forall v n r,
  digs v n (l ++ r) = digs (v * 10 ^ zlen l + x) (n + length l)%nat r.
Proof.
  induction 1 as [|l x c d W IH D Hd]; intros v n r.
  - cbn [app]. change (zlen (@nil Z)) with 0. change (10 ^ 0) with 1. f_equal; [lia|]. cbn. lia.
  - rewrite <- app_assoc. cbn [app]. rewrite IH. cbn [digs].
    destruct D as [[Hv ->]|[Hv _]]; [|lia].
    assert (is_digit (48 + d) = true) as -> by (unfold is_digit; lia).
    rewrite zlen_app, zlen_cons, zlen_nil, Z.pow_add_r by (unfold zlen; lia). f_equal.
    + lia.
    + rewrite app_length. cbn. lia.
Qed.
Lemma writes_digit l x : writes 10 l x -> Forall (fun c => 48 <= c <= 57) l.
Proof.
  induction 1 as [|l x c d W IH D Hd]; [constructor|]. apply Forall_app. split; auto. constructor; [|constructor].
  destruct D as [[Hv ->]|[Hv _]]; lia.
Qed.
Lemma digs_kdec k : forall m v n r, 0 <= m ->
  digs v n (kdec k m ++ r) = digs (v * 10 ^ Z.of_nat k + m mod 10 ^ Z.of_nat k) (n + k)%nat r.
Proof.
  induction k as [|k IH]; intros m v n r Hm.
  - cbn [kdec app]. change (10 ^ Z.of_nat 0) with 1. rewrite Z.mod_1_r. f_equal; lia.
  - cbn [kdec]. rewrite <- app_assoc. cbn [app]. rewrite IH by (apply Z.div_pos; lia). cbn [digs].
    pose proof (Z.mod_pos_bound m 10 ltac:(lia)) as B.
    assert (is_digit (m mod 10 + 48) = true) as -> by (unfold is_digit; lia).
    rewrite Nat2Z.inj_succ, Z.pow_succ_r by lia.
    rewrite Z.rem_mul_r by (try apply Z.pow_nonzero; lia). f_equal; [|lia].
    lia.
Qed.
Lemma kdec_digit k : forall m, Forall (fun c => 48 <= c <= 57) (kdec k m).
Proof.
  induction k as [|k IH]; intros m; cbn [kdec]; [constructor|]. apply Forall_app. split; auto.
  constructor; [|constructor]. pose proof (Z.mod_pos_bound m 10 ltac:(lia)). lia.
Qed.
Lemma kdec_len k : forall m, length (kdec k m) = k.
Proof. induction k as [|k IH]; intros m; cbn [kdec]; [reflexivity|]. rewrite app_length, IH. cbn. lia. Qed.

Lemma rdigits_rdig f : forall n, rdigits f n = rdig f n.
Proof. induction f as [|f IH]; intros n; cbn; [reflexivity|]. destruct (n =? 0); [reflexivity|]. now rewrite IH. Qed.
Lemma rdig_len m : forall x, (length (rdig m x) <= m)%nat.
Proof. induction m; intros x; cbn; [lia|]. destruct (x =? 0); cbn; [lia|]. specialize (IHm (x / 10)). lia. Qed.
Lemma udec_ok n : 0 <= n -> writes 10 (udec n) n /\ udec n <> [] /\ (length (udec n) <= S (S (Z.to_nat (Z.log2 n))))%nat.
Proof.
  intros Hn. unfold udec. destruct (Z.leb_spec n 0).
  - assert (n = 0) as -> by lia. split; [|split; [discriminate|cbn; lia]].
    apply (w_snoc 10 [] 0 48 0); [constructor|left; lia|lia].
  - rewrite rdigits_rdig. set (f := S (Z.to_nat (Z.log2 n))).
    assert (B : n < 10 ^ Z.of_nat f).
    { pose proof (Z.log2_spec n ltac:(lia)) as L. unfold f. pose proof (Z.log2_nonneg n).
      replace (Z.of_nat (S (Z.to_nat (Z.log2 n)))) with (Z.succ (Z.log2 n)) by lia.
      eapply Z.lt_le_trans; [apply L|]. apply Z.pow_le_mono_l. lia. }
    split; [apply rdig_writes; [lia|exact B]|]. split.
    + destruct (rdig_top f n) as [A _]; [lia|exact B|]. intros E. apply (f_equal (@rev Z)) in E.
      rewrite rev_involutive in E. auto.
    + rewrite rev_length. pose proof (rdig_len f n). lia.
Qed.

(** ** Reading the texts *)
Definition signed (s : bool) (l : list Z) : list Z := (if s then [45] else []) ++ l.
Lemma plain_signed s l : (exists c r, l = c :: r /\ 48 <= c <= 57) ->
  plain (signed s l) =
  let '(v, n, r) := digs 0 0 l in
  match n with
  | O => None
  | _ =>
    match r with
    | [] => Some (s, v, O)
    | c :: r' =>
      if c =? 46 then
        let '(w, k, e) := digs v 0 r' in
        match e with
        | [] => if (1 <=? Z.of_nat k) && (Z.of_nat k <=? 6) then Some (s, w, k) else None
        | _ => None
        end
      else None
    end
  end.
Proof.
  intros (c & r & -> & Hc). unfold plain, signed. destruct s; cbn [app].
  - replace (45 =? 45) with true by reflexivity. reflexivity.
  - destruct (Z.eqb_spec c 45); [lia|reflexivity].
Qed.
Lemma head_digit l x : writes 10 l x -> l <> [] -> forall r, exists c u, l ++ r = c :: u /\ 48 <= c <= 57.
Proof.
  intros W H r. pose proof (writes_digit l x W) as F. destruct l as [|c u]; [congruence|]. inversion F; subst.
  exists c, (u ++ r). auto.
Qed.
Lemma plain_int s l x : writes 10 l x -> l <> [] -> plain (signed s l) = Some (s, x, O).
Proof.
  intros W H. rewrite plain_signed.
  - pose proof (digs_writes l x W 0 0 []) as E. rewrite app_nil_r in E. rewrite E. cbn [digs].
    destruct l as [|c u]; [congruence|]. cbn [length Nat.add]. do 2 f_equal.
  - destruct (head_digit l x W H []) as (c & u & E & Hc). rewrite app_nil_r in E. eauto.
Qed.
Lemma plain_dec s l x m : writes 10 l x -> l <> [] -> 0 <= m < 1000000 ->
  plain (signed s (l ++ [46] ++ kdec 6 m)) = Some (s, x * 1000000 + m, 6%nat).
Proof.
  intros W H Hm. rewrite plain_signed by (destruct (head_digit l x W H ([46] ++ kdec 6 m)) as (c & u & E & Hc); eauto).
  rewrite (digs_writes l x W). cbn [app digs]. replace (is_digit 46) with false by reflexivity.
  destruct l as [|c u]; [congruence|]. cbn [length Nat.add]. replace (46 =? 46) with true by reflexivity.
  pose proof (digs_kdec 6 m (0 * 10 ^ zlen (c :: u) + x) 0 [] ltac:(lia)) as E. rewrite app_nil_r in E. rewrite E.
  cbn [digs]. change (10 ^ Z.of_nat 6) with 1000000. rewrite (Z.mod_small m 1000000) by exact Hm.
  cbn [Nat.add]. reflexivity.
Qed.

Section Read.
  Variable other : list Z -> option f64.
  Lemma fparse_zero s l : writes 10 l 0 -> l <> [] -> fparse other (signed s l) = Some (S754_zero s).
  Proof. intros W H. unfold fparse. rewrite (plain_int s l 0) by assumption. reflexivity. Qed.
  Lemma fparse_int s l t : writes 10 l (Zpos t) -> l <> [] -> Zpos t < 2 ^ 24 ->
    fparse other (signed s l) = Some (of_int (if s then Zneg t else Zpos t)).
  Proof.
    intros W H Ht. unfold fparse. rewrite (plain_int s l _ W H). cbn [Z.of_nat]. change (10 ^ 0) with 1.
    rewrite (near32_dyad s t 1 t 0) by lia. rewrite of_int_sgn by lia. unfold dyad. now rewrite Z.sub_0_r.
  Qed.
End Read.

(** Integers: the text Integer::toString writes. *)
Lemma itext_ok z : - BOUND <= z <= BOUND -> itext z = Ok (signed (z <? 0) (dec (Z.abs z))).
Proof.
  intros H. unfold itext. destruct (s_lit_ok [] nonul_nil) as (f & -> & Rf & _). cbn [rbind].
  destruct (toString_ok z f Rf H) as (r & -> & Rr). cbn [rbind]. rewrite (cstr_cchars r _ Rr). cbn [ofo].
  unfold signed. destruct (Z.ltb_spec z 0); cbn [app]; [rewrite Z.abs_neq by lia|rewrite Z.abs_eq by lia]; reflexivity.
Qed.
Lemma fparse_itext other z : Z.abs z < 2 ^ 24 -> fparse other (signed (z <? 0) (dec (Z.abs z))) = Some (of_int z).
Proof.
  intros H. destruct (dec_decimal (Z.abs z)) as (H1 & H2 & _); [unfold BOUND; lia|].
  destruct z as [|p|p]; cbn [Z.abs Z.ltb Z.compare] in *.
  - rewrite fparse_zero; auto.
  - rewrite (fparse_int other false _ p); auto.
  - rewrite (fparse_int other true _ p); auto.
Qed.
Lemma dec_len n : (length (dec n) <= 64)%nat.
Proof. unfold dec. destruct (n =? 0); [cbn; lia|]. rewrite rev_length. apply rdig_len. Qed.

(** Multiples of 1/64. *)
Lemma fdiv_64 (s : bool) t : Zpos t < 2 ^ 53 -> fdiv (of_int (if s then Zneg t else Zpos t)) (of_int 64) = dyad s t 6.
Proof.
  intros Ht. rewrite of_int_sgn by exact Ht.
  assert (of_int 64 = S754_finite false 4503599627370496 (-46)) as -> by reflexivity.
  unfold fdiv, SFdiv, SFdiv_core_binary. cbn [Zdigits2]. rewrite canon_digits by exact Ht.
  change (Zpos (digits2_pos 4503599627370496)) with 53.
  pose proof (canon_e_range t Ht) as Rt.
  assert (EM : Z.min (fexp fprec femax (53 + canon_e t - (53 + -46))) (canon_e t - -46) = canon_e t - 7).
  { unfold fexp, emin, fprec, femax. lia. }
  rewrite EM. replace (canon_e t - -46 - (canon_e t - 7)) with 53 by lia.
  cbv zeta. cbn match. rewrite Z.shiftl_mul_pow2 by lia.
  replace (Zpos (canon_m t) * 2 ^ 53) with (2 * Zpos (canon_m t) * 4503599627370496) by lia.
  pose proof (Z_div_mod (2 * Zpos (canon_m t) * 4503599627370496) 4503599627370496 ltac:(lia)) as D.
  destruct (Z.div_eucl (2 * Zpos (canon_m t) * 4503599627370496) 4503599627370496) as [u r].
  destruct D as [D1 D2].
  destruct (Z.div_mod_unique 4503599627370496 u (2 * Zpos (canon_m t)) r 0) as [-> ->];
    [left; exact D2 | left; lia | lia |].
  change (new_location 4503599627370496 0) with loc_Exact.
  change (2 * Zpos (canon_m t)) with (Zpos (canon_m t)~0).
  rewrite xorb_false_r.
  rewrite (round_aux_exact s _ _ (canon_m t) 1).
  - unfold dyad. f_equal. lia.
  - change (2 ^ 1) with 2. lia.
  - lia.
  - rewrite canon_digits by exact Ht. unfold fexp, emin, fprec, femax. lia.
  - unfold fprec, femax. lia.
Qed.
Lemma micros_64 t : Zpos t < 2 ^ 53 -> micros (canon_m t) (canon_e t - 6) = Zpos t * 15625.
Proof.
  intros Ht. pose proof (canon_e_range t Ht) as Rt. unfold micros.
  destruct (Z.leb_spec 0 (canon_e t - 6)); [lia|].
  assert (Hd : 0 < 2 ^ (- (canon_e t - 6))) by (apply Z.pow_pos_nonneg; lia).
  assert (E : Zpos (canon_m t) * 1000000 = Zpos t * 15625 * 2 ^ (- (canon_e t - 6))).
  { rewrite canon_m_Z by exact Ht. replace (- (canon_e t - 6)) with (- canon_e t + 6) by lia.
    rewrite pow_split by lia. change (2 ^ 6) with 64. lia. }
  cbv zeta. rewrite E, Z.div_mul, Z_mod_mult by lia.
  destruct (Z.ltb_spec (2 * 0) (2 ^ (- (canon_e t - 6)))); [reflexivity|lia].
Qed.
Lemma ftext_64 s t : Zpos t < 2 ^ 53 ->
  ftext (dyad s t 6) = signed s (udec (Zpos t * 15625 / 1000000) ++ [46] ++ kdec 6 (Zpos t * 15625 mod 1000000)).
Proof. intros Ht. unfold ftext, dyad. rewrite micros_64 by exact Ht. reflexivity. Qed.
Lemma fparse_ftext other s t : Zpos t < 2 ^ 24 -> fparse other (ftext (dyad s t 6)) = Some (dyad s t 6).
Proof.
  intros Ht. rewrite ftext_64 by lia. unfold fparse.
  destruct (udec_ok (Zpos t * 15625 / 1000000)) as (W & N & _); [apply Z.div_pos; lia|].
  rewrite (plain_dec s _ _ _ W N) by (apply Z.mod_pos_bound; lia).
  replace (Zpos t * 15625 / 1000000 * 1000000 + (Zpos t * 15625) mod 1000000) with (Zpos (t * 15625)).
  - change (10 ^ Z.of_nat 6) with (Zpos 1000000). apply near32_dyad; try lia.
  - pose proof (Z.div_mod (Zpos t * 15625) 1000000 ltac:(lia)). lia.
Qed.
