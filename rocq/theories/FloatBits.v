(** The 64-bit word of a double: round trips and the order of doubles. *)
From Coq Require Import ZArith Bool Lia.
From Verif Require Import FloatModel FloatProofs.
Open Scope Z_scope.

Ltac dm := Z.div_mod_to_equations.

Definition w64 (w : Z) : Prop := - 2 ^ 63 <= w < 2 ^ 63.
(** sign and magnitude of a word *)
Definition wsgn (w : Z) : bool := w <? 0.
Definition wmag (w : Z) : Z := if w <? 0 then w + 2 ^ 63 else w.

Inductive dec_view (w : Z) : f64 -> Prop :=
| dv_zero : wmag w = 0 -> dec_view w (S754_zero (wsgn w))
| dv_sub p : wmag w = Zpos p -> Zpos p < 2 ^ 52 -> dec_view w (S754_finite (wsgn w) p (-1074))
| dv_norm p e : 1 <= e <= 2046 -> 2 ^ 52 <= Zpos p < 2 ^ 53 ->
    wmag w = e * 2 ^ 52 + (Zpos p - 2 ^ 52) -> dec_view w (S754_finite (wsgn w) p (e - 1075))
| dv_inf : wmag w = 2047 * 2 ^ 52 -> dec_view w (S754_infinity (wsgn w))
| dv_nan : 2047 * 2 ^ 52 < wmag w -> dec_view w S754_nan.

Lemma wmag_range w : w64 w -> 0 <= wmag w < 2 ^ 63.
Proof. unfold w64, wmag. destruct (w <? 0) eqn:E; lia. Qed.

Lemma dec_spec w : w64 w -> dec_view w (dec w).
Proof.
  intros H. pose proof (wmag_range w H) as HM. unfold dec.
  set (u := w mod 2 ^ 64).
  assert (Hu : u = (if wsgn w then 2 ^ 63 else 0) + wmag w).
  { unfold u, wsgn, wmag. unfold w64 in H. destruct (w <? 0) eqn:E; dm; lia. }
  assert (Hs : (2 ^ 63 <=? u) = wsgn w).
  { rewrite Hu. destruct (wsgn w); lia. }
  rewrite Hs.
  set (g := wmag w) in *.
  assert (Hm : u mod 2 ^ 52 = g mod 2 ^ 52).
  { rewrite Hu. destruct (wsgn w).
    - replace (2 ^ 63 + g) with (g + 2 ^ 11 * 2 ^ 52) by lia. apply Z.mod_add. lia.
    - f_equal. }
  assert (He : (u / 2 ^ 52) mod 2 ^ 11 = g / 2 ^ 52).
  { rewrite Hu. destruct (wsgn w).
    - replace (2 ^ 63 + g) with (g + 2 ^ 11 * 2 ^ 52) by lia. rewrite Z.div_add by lia.
      rewrite <- (Z.mul_1_l (2 ^ 11)) at 1. rewrite Z.mod_add by lia. apply Z.mod_small. dm; lia.
    - rewrite Z.add_0_l. apply Z.mod_small. dm; lia. }
  rewrite He, Hm. clear He Hm Hs.
  assert (Hg : g = (g / 2 ^ 52) * 2 ^ 52 + g mod 2 ^ 52) by (dm; lia).
  assert (Hgm : 0 <= g mod 2 ^ 52 < 2 ^ 52) by (apply Z.mod_pos_bound; lia).
  assert (Hgd : 0 <= g / 2 ^ 52 <= 2047) by (dm; lia).
  set (e := g / 2 ^ 52) in *. set (m := g mod 2 ^ 52) in *.
  destruct (Z.eqb_spec e 2047) as [E1|E1].
  - destruct (Z.eqb_spec m 0) as [E2|E2].
    + apply dv_inf. fold g. lia.
    + apply dv_nan. fold g. lia.
  - destruct (Z.eqb_spec e 0) as [E2|E2].
    + destruct m as [|p|p] eqn:Em.
      * apply dv_zero. fold g. lia.
      * apply dv_sub; [fold g; lia | lia].
      * lia.
    + destruct (m + 2 ^ 52) as [|p|p] eqn:Em; try lia.
      apply dv_norm; [lia | lia | fold g; lia].
Qed.

Lemma word_split w : w64 w -> sgn_word (wsgn w) (wmag w) = w.
Proof. unfold w64, sgn_word, wsgn, wmag. intros H. destruct (w <? 0) eqn:E; lia. Qed.

Lemma enc_dec w : w64 w -> dec w <> S754_nan -> enc (dec w) = w.
Proof.
  intros H HN. pose proof (dec_spec w H) as V.
  inversion V as [E E'|p E E0 E'|p e E E0 E1 E'|E E'|E E']; unfold enc.
  - rewrite <- E. apply word_split, H.
  - rewrite (proj2 (Z.ltb_lt _ _) E0), <- E. apply word_split, H.
  - assert ((Zpos p <? 2 ^ 52) = false) as -> by lia.
    replace (e - 1075 + 1075) with e by lia. rewrite <- E1. apply word_split, H.
  - rewrite <- E. apply word_split, H.
  - congruence.
Qed.

(** What [enc] writes always fits a word, and reading it back gives the double. *)
Definition valid (f : f64) : Prop := valid_binary fprec femax f = true.

Lemma valid_finite s m e : valid (S754_finite s m e) ->
  (2 ^ 52 <= Zpos m < 2 ^ 53 /\ -1074 <= e <= 971) \/ (Zpos m < 2 ^ 52 /\ e = -1074).
Proof.
  unfold valid, valid_binary, bounded, canonical_mantissa. intros H.
  apply andb_true_iff in H. destruct H as [H1 H2].
  apply Zeq_bool_eq in H1. apply Z.leb_le in H2.
  unfold fexp, emin, fprec, femax in *. pose proof (digits_bounds m) as [B1 B2].
  destruct (Z_le_gt_dec 53 (Zpos (digits2_pos m))) as [D|D].
  - assert (Zpos (digits2_pos m) = 53) as E by lia. rewrite E in *.
    left. lia.
  - right. assert (2 ^ Zpos (digits2_pos m) <= 2 ^ 52) by (apply Z.pow_le_mono_r; lia). lia.
Qed.

Lemma finite_valid s m e :
  (2 ^ 52 <= Zpos m < 2 ^ 53 /\ -1074 <= e <= 971) \/ (Zpos m < 2 ^ 52 /\ e = -1074) ->
  valid (S754_finite s m e).
Proof.
  intros H. unfold valid, valid_binary, bounded, canonical_mantissa.
  apply andb_true_iff. destruct H as [[H1 H2]|[H1 H2]].
  - assert (E : Zpos (digits2_pos m) = 53) by (apply digits_unique; lia).
    rewrite E. split.
    + apply Zeq_is_eq_bool. unfold fexp, emin, fprec, femax. lia.
    + apply Z.leb_le. unfold femax, fprec. lia.
  - pose proof (digits_le m 52 ltac:(lia) H1). split.
    + apply Zeq_is_eq_bool. unfold fexp, emin, fprec, femax. lia.
    + apply Z.leb_le. unfold femax, fprec. lia.
Qed.

Lemma dec_valid w : w64 w -> valid (dec w).
Proof.
  intros H. pose proof (dec_spec w H) as V.
  inversion V as [E E'|p E E0 E'|p e E E0 E1 E'|E E'|E E']; try reflexivity;
    apply finite_valid; lia.
Qed.

Lemma enc_w64 f : valid f -> w64 (enc f).
Proof.
  unfold w64. destruct f as [s|s| |s m e]; intros H; unfold enc.
  - destruct s; simpl; lia.
  - destruct s; simpl; lia.
  - lia.
  - apply valid_finite in H. unfold sgn_word.
    destruct (Zpos m <? 2 ^ 52) eqn:E; destruct s; lia.
Qed.

Lemma wsgn_word s g : 0 <= g < 2 ^ 63 -> wsgn (sgn_word s g) = s.
Proof. unfold wsgn, sgn_word. destruct s; lia. Qed.
Lemma wmag_word s g : 0 <= g < 2 ^ 63 -> wmag (sgn_word s g) = g.
Proof. unfold wmag, sgn_word. destruct s; intros H; [destruct (g - 2 ^ 63 <? 0) eqn:E|destruct (g <? 0) eqn:E]; lia. Qed.

Lemma dec_enc f : valid f -> dec (enc f) = f.
Proof.
  intros H. pose proof (dec_spec (enc f) (enc_w64 f H)) as V.
  destruct f as [s|s| |s m e].
  - unfold enc in *. destruct s; reflexivity.
  - destruct s; reflexivity.
  - reflexivity.
  - apply valid_finite in H. unfold enc in *.
    destruct (Zpos m <? 2 ^ 52) eqn:E.
    + assert (wmag (sgn_word s (Zpos m)) = Zpos m) as W by (apply wmag_word; lia).
      assert (wsgn (sgn_word s (Zpos m)) = s) as S by (apply wsgn_word; lia).
      inversion V as [F F'|p F F0 F'|p e' F F0 F1 F'|F F'|F F']; rewrite W in *; rewrite ?S; try lia.
      assert (e = -1074) as -> by lia. congruence.
    + set (g := (e + 1075) * 2 ^ 52 + (Zpos m - 2 ^ 52)) in *.
      assert (0 <= g < 2047 * 2 ^ 52) as Hg by (unfold g; lia).
      assert (wmag (sgn_word s g) = g) as W by (apply wmag_word; lia).
      assert (wsgn (sgn_word s g) = s) as S by (apply wsgn_word; lia).
      inversion V as [F F'|p F F0 F'|p e' F F0 F1 F'|F F'|F F']; rewrite W in *; rewrite ?S; unfold g in *; try lia.
      assert (e + 1075 = e') by (dm; lia).
      f_equal; lia.
Qed.

(** *** Order of the doubles: that of a signed magnitude *)
Definition wkey (w : Z) : Z := if wsgn w then - wmag w else wmag w.

Lemma compare_key a b : w64 a -> w64 b -> dec a <> S754_nan -> dec b <> S754_nan ->
  SFcompare (dec a) (dec b) = Some (wkey a ?= wkey b).
Proof.
  intros Ha Hb Na Nb. pose proof (dec_spec a Ha) as VA. pose proof (dec_spec b Hb) as VB.
  pose proof (wmag_range a Ha) as Ra. pose proof (wmag_range b Hb) as Rb.
  unfold wkey.
  inversion VA as [E E'|p E E0 E'|p e E E0 E1 E'|E E'|E E']; [| | | |congruence];
    (inversion VB as [F F'|q F F0 F'|q f F F0 F1 F'|F F'|F F']; [| | | |congruence]);
    destruct (wsgn a), (wsgn b); cbn [SFcompare]; f_equal; symmetry;
    try (apply Z.compare_lt_iff; lia); try (apply Z.compare_gt_iff; lia); try (apply Z.compare_eq_iff; lia);
    try (change (Pos.compare_cont Eq p q) with (Pos.compare p q)).
  - rewrite Z.compare_refl, (Pos2Z.inj_compare p q), E, F. change (- Zpos p ?= - Zpos q) with (CompOpp (Zpos p ?= Zpos q)). reflexivity.
  - rewrite Z.compare_refl, (Pos2Z.inj_compare p q), E, F. reflexivity.
  - destruct (Z.compare_spec (-1074) (f - 1075)) as [G|G|G].
    + rewrite E, F1, (Pos2Z.inj_compare p q).
      assert (p < q)%positive by lia.
      rewrite (proj2 (Z.compare_lt_iff (Zpos p) (Zpos q))) by lia. simpl CompOpp.
      apply Z.compare_gt_iff. lia.
    + apply Z.compare_gt_iff. lia.
    + lia.
  - destruct (Z.compare_spec (-1074) (f - 1075)) as [G|G|G].
    + rewrite E, F1, (Pos2Z.inj_compare p q).
      rewrite (proj2 (Z.compare_lt_iff (Zpos p) (Zpos q))) by lia. apply Z.compare_lt_iff. lia.
    + apply Z.compare_lt_iff. lia.
    + lia.
  - destruct (Z.compare_spec (e - 1075) (-1074)) as [G|G|G].
    + rewrite F, E1, (Pos2Z.inj_compare p q).
      rewrite (proj2 (Z.compare_gt_iff (Zpos p) (Zpos q))) by lia. apply Z.compare_lt_iff. lia.
    + lia.
    + apply Z.compare_lt_iff. lia.
  - destruct (Z.compare_spec (e - 1075) (-1074)) as [G|G|G].
    + rewrite F, E1, (Pos2Z.inj_compare p q).
      rewrite (proj2 (Z.compare_gt_iff (Zpos p) (Zpos q))) by lia. apply Z.compare_gt_iff. lia.
    + lia.
    + apply Z.compare_gt_iff. lia.
  - destruct (Z.compare_spec (e - 1075) (f - 1075)) as [G|G|G].
    + rewrite E1, F1, (Pos2Z.inj_compare p q).
      destruct (Z.compare_spec (Zpos p) (Zpos q)); simpl CompOpp;
        [apply Z.compare_eq_iff | apply Z.compare_gt_iff | apply Z.compare_lt_iff]; lia.
    + apply Z.compare_gt_iff. lia.
    + apply Z.compare_lt_iff. lia.
  - destruct (Z.compare_spec (e - 1075) (f - 1075)) as [G|G|G].
    + rewrite E1, F1, (Pos2Z.inj_compare p q).
      destruct (Z.compare_spec (Zpos p) (Zpos q));
        [apply Z.compare_eq_iff | apply Z.compare_lt_iff | apply Z.compare_gt_iff]; lia.
    + apply Z.compare_lt_iff. lia.
    + apply Z.compare_gt_iff. lia.
Qed.
