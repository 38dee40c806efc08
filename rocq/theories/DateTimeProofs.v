(** Lemmas about the DateTime model. *)
From Coq Require Import List ZArith Bool Lia Znumtheory.
From Verif Require Import Base StringModel DateTimeModel DateTimeSpec DateTimeCal.
Import ListNotations.
Open Scope Z_scope.

Lemma mlen_period y m k : mlen (y + 400 * k) m = mlen y m.
Proof. unfold mlen. now rewrite isLeap_period. Qed.

Lemma civil_eq n : civil n =
  let '(yoe, m, d) := civil_doe ((n + 719468) mod 146097) in (yoe + (n + 719468) / 146097 * 400 + bump m, m, d).
Proof. unfold civil, civil_doe, bump. cbv zeta. reflexivity. Qed.
Lemma dayno_eq y m d : dayno y m d =
  ((y - bump m) / 400) * 146097 + doe_of ((y - bump m) mod 400) m d - 719468.
Proof. unfold dayno, doe_of, bump. destruct (m <=? 2); rewrite ?Z.sub_0_r; lia. Qed.

Lemma civil_dayno y m d : 1 <= m <= 12 -> 1 <= d <= mlen y m -> civil (dayno y m d) = (y, m, d).
Proof.
  intros Hm Hd. rewrite civil_eq, dayno_eq.
  set (y' := y - bump m). set (era := y' / 400). set (yoe := y' mod 400).
  assert (Ey : y = (yoe + bump m) + 400 * era).
  { unfold yoe, era. pose proof (Z.div_mod y' 400). unfold y' in *. lia. }
  assert (Hyoe : 0 <= yoe < 400) by (apply Z.mod_pos_bound; lia).
  rewrite Ey, mlen_period in Hd.
  destruct (doe_of_ok yoe m d Hyoe Hm Hd) as [E B].
  replace (era * 146097 + doe_of yoe m d - 719468 + 719468) with (doe_of yoe m d + era * 146097) by lia.
  rewrite Z.mod_add, Z.div_add by lia. rewrite Z.mod_small, Z.div_small by lia. rewrite E.
  rewrite (Ey) at 1. f_equal. f_equal. lia.
Qed.
Lemma civil_valid n : let '(y, m, d) := civil n in 1 <= m <= 12 /\ 1 <= d <= mlen y m /\ dayno y m d = n.
Proof.
  rewrite civil_eq. set (z := n + 719468).
  assert (Hz : 0 <= z mod 146097 < 146097) by (apply Z.mod_pos_bound; lia).
  pose proof (civil_doe_ok _ Hz) as C.
  destruct (civil_doe (z mod 146097)) as [[yoe m] d] eqn:E.
  destruct C as (A & B & D & I).
  split; [lia|]. replace (yoe + z / 146097 * 400 + bump m) with (yoe + bump m + 400 * (z / 146097)) by lia.
  rewrite mlen_period. split; [lia|].
  rewrite dayno_eq. replace (yoe + bump m + 400 * (z / 146097) - bump m) with (yoe + (z / 146097) * 400) by lia.
  rewrite Z.mod_add, Z.div_add by lia. rewrite Z.mod_small, Z.div_small by lia. rewrite I.
  pose proof (Z.div_mod z 146097). unfold z in *. lia.
Qed.
Lemma dayno_shift y m d k : dayno y m (d + k) = dayno y m d + k.
Proof. unfold dayno. lia. Qed.

Lemma feb_end r : 1 <= r < 400 ->
  r * 365 + r / 4 - r / 100 =
  (r - 1) * 365 + (r - 1) / 4 - (r - 1) / 100 + 337 + (if (r mod 4 =? 0) && negb (r mod 100 =? 0) || (r =? 0) then 29 else 28).
Proof.
  intros Hr. apply Z.eqb_eq.
  assert (C : all_up 399 1 (fun r => r * 365 + r / 4 - r / 100 =?
    (r - 1) * 365 + (r - 1) / 4 - (r - 1) / 100 + 337 + (if (r mod 4 =? 0) && negb (r mod 100 =? 0) || (r =? 0) then 29 else 28)) = true)
    by (vm_compute; reflexivity).
  exact (all_up_ok _ _ _ C r ltac:(lia)).
Qed.
Lemma next_dayno y m d y' m' d' : next_day (y, m, d) (y', m', d') -> 1 <= m <= 12 -> 1 <= d ->
  dayno y' m' d' = dayno y m d + 1 /\ (d <= mlen y m -> 1 <= m' <= 12 /\ 1 <= d' <= mlen y' m').
Proof.
  intros H Hm Hd. inversion H; subst.
  - split; [apply dayno_shift|]. match goal with K : month_length _ _ _ |- _ => apply mlen_spec in K end. intros; split; lia.
  - match goal with K : month_length _ _ _ |- _ => apply mlen_spec in K; destruct K as [_ Hk] end.
    split; [|intros _; match goal with |- _ /\ 1 <= 1 <= ?x => assert (28 <= x) by apply mlen_le end; split; lia].
    rewrite !dayno_eq.
    rename y' into Y.
    assert (C : m = 1 \/ m = 2 \/ m = 3 \/ m = 4 \/ m = 5 \/ m = 6 \/ m = 7 \/ m = 8 \/ m = 9 \/ m = 10 \/ m = 11) by lia.
    decompose [or] C; subst m; unfold mlen in Hk; cbn [Z.eqb Pos.eqb orb] in Hk; subst d; unfold bump, doe_of;
      repeat match goal with |- context [?a <=? ?b] => let r := eval compute in (a <=? b) in change (a <=? b) with r end;
      cbv iota; rewrite ?Z.sub_0_r.
    all: repeat match goal with |- context [(153 * ?a + 2) / 5] => let r := eval compute in ((153 * a + 2) / 5) in change ((153 * a + 2) / 5) with r end.
    all: try ring.
    (* end of february *)
    pose proof (Z.div_mod Y 400 ltac:(lia)). pose proof (Z.mod_pos_bound Y 400 ltac:(lia)).
    set (q := Y / 400) in *. set (r := Y mod 400) in *.
    assert (Hl : isLeap Y = isLeap r) by (replace Y with (r + 400 * q) by lia; apply isLeap_period).
    rewrite Hl. replace (Y - 1) with (r - 1 + q * 400) by lia. rewrite Z.div_add, Z.mod_add by lia.
    assert (HR : isLeap r = ((r mod 4 =? 0) && negb (r mod 100 =? 0) || (r =? 0))).
    { unfold isLeap. rewrite !Z.rem_mod_nonneg by lia. rewrite (Z.mod_small r 400) by lia. reflexivity. }
    rewrite HR.
    destruct (Z.eq_dec r 0) as [->|Hr].
    + change ((0 - 1) / 400) with (-1). change ((0 - 1) mod 400) with 399. change (399 / 4) with 99. change (399 / 100) with 3.
      change (0 / 4) with 0. change (0 / 100) with 0.
      change ((0 mod 4 =? 0) && negb (0 mod 100 =? 0) || (0 =? 0)) with true. cbv iota. clearbody q. lia.
    + rewrite (Z.div_small (r - 1)), (Z.mod_small (r - 1)) by lia. clearbody q r. clear Hl HR H H0 Hd C.
      pose proof (feb_end r ltac:(lia)). lia.
  - split; [|intros _; unfold mlen; cbn; lia].
    rewrite !dayno_eq. unfold bump, doe_of. cbn [Z.leb Z.compare Pos.compare Pos.compare_cont].
    replace (y + 1 - 1) with y by lia. rewrite Z.sub_0_r.
    change ((153 * (1 + 9) + 2) / 5) with 306. change ((153 * (12 - 3) + 2) / 5) with 275. lia.
Qed.

(** ** mktime and localtime *)
Ltac Zify.zify_post_hook ::= Z.div_mod_to_equations.
Lemma localtime_mktime s : mktime (localtime s) = s.
Proof.
  unfold localtime. pose proof (civil_valid (s / 86400)) as C. destruct (civil (s / 86400)) as [[y m] d].
  destruct C as (Hm & Hd & E). unfold mktime. cbn [t_year t_mon t_mday t_hour t_min t_sec].
  rewrite Z.div_small, Z.mod_small by lia.
  replace (y - 1900 + 1900 + 0) with y by lia. replace (m - 1 + 1) with m by lia.
  pose proof (dayno_shift y m 1 (d - 1)). replace (1 + (d - 1)) with d in H by lia. rewrite <- H, E.
  pose proof (Z.div_mod s 86400). lia.
Qed.
Definition tm_valid (t : tm) : Prop :=
  valid_date (t_year t + 1900) (t_mon t + 1) (t_mday t) /\ valid_time (t_hour t) (t_min t) (t_sec t).
Lemma localtime_valid s : tm_valid (localtime s).
Proof.
  unfold localtime. pose proof (civil_valid (s / 86400)) as C. destruct (civil (s / 86400)) as [[y m] d].
  destruct C as (Hm & Hd & E). unfold tm_valid. cbn [t_year t_mon t_mday t_hour t_min t_sec].
  replace (y - 1900 + 1900) with y by lia. replace (m - 1 + 1) with m by lia. split; [apply valid_date_spec; lia|].
  unfold valid_time. lia.
Qed.
Lemma mktime_valid t : tm_valid t -> mktime t =
  dayno (t_year t + 1900) (t_mon t + 1) (t_mday t) * 86400 + (t_hour t * 3600 + t_min t * 60 + t_sec t).
Proof.
  intros [Hd Ht]. apply valid_date_spec in Hd. unfold mktime. rewrite Z.div_small, Z.mod_small by lia. rewrite Z.add_0_r.
  pose proof (dayno_shift (t_year t + 1900) (t_mon t + 1) 1 (t_mday t - 1)).
  replace (1 + (t_mday t - 1)) with (t_mday t) in H by lia. lia.
Qed.
Lemma norm_valid t : tm_valid t -> norm t = t.
Proof.
  intros V. unfold norm. rewrite (mktime_valid t V). destruct V as [Hd Ht]. apply valid_date_spec in Hd. unfold valid_time in Ht.
  unfold localtime. set (D := dayno _ _ _). set (T := t_hour t * 3600 + t_min t * 60 + t_sec t).
  assert (HT : 0 <= T < 86400) by (unfold T; lia).
  assert (E1 : (D * 86400 + T) / 86400 = D) by lia. rewrite E1. unfold D. rewrite civil_dayno by lia.
  destruct t as [y m d h mi s]. cbn [t_year t_mon t_mday t_hour t_min t_sec] in *. unfold T in *. f_equal; lia.
Qed.
Lemma mktime_norm t : mktime (norm t) = mktime t.
Proof. apply localtime_mktime. Qed.

(** ** Constructor *)
Lemma dt_new_date y m d : 
  (if (m <? 1) || (12 <? m) then false else
  if d <? 1 then false else
  if ((m =? 1) || (m =? 3) || (m =? 5) || (m =? 7) || (m =? 8) || (m =? 10) || (m =? 12)) && (31 <? d) then false else
  if ((m =? 4) || (m =? 6) || (m =? 9) || (m =? 11)) && (30 <? d) then false else
  if (m =? 2) && isLeap y && (29 <? d) then false else
  if (m =? 2) && negb (isLeap y) && (28 <? d) then false else true) = true <-> valid_date y m d.
Proof.
  rewrite valid_date_spec.
  destruct (Z.ltb_spec m 1); cbn [orb]; [split; [discriminate|lia]|].
  destruct (Z.ltb_spec 12 m); cbn [orb]; [split; [discriminate|lia]|].
  destruct (Z.ltb_spec d 1); [split; [discriminate|lia]|].
  assert (C : m = 1 \/ m = 2 \/ m = 3 \/ m = 4 \/ m = 5 \/ m = 6 \/ m = 7 \/ m = 8 \/ m = 9 \/ m = 10 \/ m = 11 \/ m = 12) by lia.
  decompose [or] C; subst m; unfold mlen; cbn [Z.eqb Pos.eqb orb andb];
    try (destruct (Z.ltb_spec 31 d); split; [discriminate|lia|lia|auto]; fail);
    try (destruct (Z.ltb_spec 30 d); split; [discriminate|lia|lia|auto]; fail).
  destruct (isLeap y); cbn [negb andb].
  - destruct (Z.ltb_spec 29 d); split; [discriminate|lia|lia|auto].
  - destruct (Z.ltb_spec 28 d); split; [discriminate|lia|lia|auto].
Qed.

(** ** Order of days *)
Lemma era_linear y : y / 400 * 146097 + (y mod 400 * 365 + y mod 400 / 4 - y mod 400 / 100) =
  365 * y + y / 4 - y / 100 + y / 400.
Proof.
  pose proof (Z.div_mod y 400 ltac:(lia)) as E. pose proof (Z.mod_pos_bound y 400 ltac:(lia)).
  set (q := y / 400) in *. set (r := y mod 400) in *. clearbody q r. subst y.
  replace ((400 * q + r) / 4) with (100 * q + r / 4) by lia.
  replace ((400 * q + r) / 100) with (4 * q + r / 100) by lia. lia.
Qed.
Lemma dayno_linear y m d : dayno y m d =
  365 * (y - bump m) + (y - bump m) / 4 - (y - bump m) / 100 + (y - bump m) / 400 + moff m + d - 1 - 719468.
Proof. rewrite dayno_eq. unfold doe_of. fold (moff m). pose proof (era_linear (y - bump m)). lia. Qed.
Lemma dayno_jan1 y m d : 1 <= m <= 12 -> 1 <= d <= mlen y m -> dayno y 1 1 <= dayno y m d < dayno (y + 1) 1 1.
Proof.
  intros Hm Hd. rewrite !dayno_linear. change (bump 1) with 1. change (moff 1) with 306.
  assert (C : m = 1 \/ m = 2 \/ m = 3 \/ m = 4 \/ m = 5 \/ m = 6 \/ m = 7 \/ m = 8 \/ m = 9 \/ m = 10 \/ m = 11 \/ m = 12) by lia.
  pose proof (mlen_le y m).
  assert (Q : forall k, 0 < k -> y / k = (y - 1) / k \/ y / k = (y - 1) / k + 1).
  { intros k Hk. assert ((y - 1) / k <= y / k) by (apply Z.div_le_mono; lia).
    assert (y / k <= (y - 1) / k + 1); [|lia]. replace ((y - 1) / k + 1) with ((y - 1 + 1 * k) / k) by (apply Z.div_add; lia).
    apply Z.div_le_mono; lia. }
  pose proof (Q 4 ltac:(lia)). pose proof (Q 100 ltac:(lia)). pose proof (Q 400 ltac:(lia)).
  decompose [or] C; subst m;
    match goal with |- context [moff ?a] => let r := eval compute in (moff a) in change (moff a) with r end;
    match goal with |- context [bump ?a] => let r := eval compute in (bump a) in change (bump a) with r | _ => idtac end;
    unfold mlen in Hd; cbn [Z.eqb Pos.eqb orb] in Hd;
    replace (y + 1 - 1) with y by lia; rewrite ?Z.sub_0_r;
    set (a := y / 4) in *; set (b := y / 100) in *; set (c := y / 400) in *;
    set (a' := (y - 1) / 4) in *; set (b' := (y - 1) / 100) in *; set (c' := (y - 1) / 400) in *.
  2: destruct (isLeap y).
  all: assert (y / 100 * 25 <= y / 4) by lia.
  all: try (unfold a, b, c, a', b', c' in *; lia).
Qed.
Lemma dayno_year y y' : y <= y' -> dayno y 1 1 <= dayno y' 1 1.
Proof.
  intros H. rewrite !dayno_linear. change (bump 1) with 1. change (moff 1) with 306.
  assert (forall k, 0 < k -> (y - 1) / k <= (y' - 1) / k) by (intros; apply Z.div_le_mono; lia).
  pose proof (H0 4 ltac:(lia)). pose proof (H0 400 ltac:(lia)).
  assert ((y' - 1) / 100 <= (y - 1) / 100 + (y' - y)); [|lia].
  assert ((y' - 1) / 100 <= (y - 1 + (y' - y) * 100) / 100) by (apply Z.div_le_mono; lia).
  rewrite Z.div_add in H3 by lia. lia.
Qed.
Definition lex3 (a b : Z * Z * Z) : Prop :=
  let '(y, m, d) := a in let '(y', m', d') := b in y < y' \/ (y = y' /\ (m < m' \/ (m = m' /\ d < d'))).
Lemma dayno_month y m m' d d' : 1 <= m < m' -> m' <= 12 -> 1 <= d <= mlen y m -> 1 <= d' -> dayno y m d < dayno y m' d'.
Proof.
  intros Hm Hm' Hd Hd'.
  assert (Hs : forall k, 1 <= k < 12 -> dayno y k (mlen y k) + 1 = dayno y (k + 1) 1).
  { intros k Hk. destruct (next_dayno y k (mlen y k) y (k + 1) 1) as [E _]; [|lia|pose proof (mlen_le y k); lia|lia].
    apply nd_month; [apply mlen_spec; lia|lia]. }
  assert (Hmono : forall n : nat, forall k, 1 <= k -> k + Z.of_nat n <= 12 -> dayno y k 1 <= dayno y (k + Z.of_nat n) 1).
  { induction n; intros k Hk Hk'; [rewrite Z.add_0_r; lia|].
    specialize (IHn k Hk ltac:(lia)). pose proof (Hs (k + Z.of_nat n) ltac:(lia)).
    replace (k + Z.of_nat (S n)) with (k + Z.of_nat n + 1) by lia.
    pose proof (dayno_shift y (k + Z.of_nat n) 1 (mlen y (k + Z.of_nat n) - 1)).
    replace (1 + (mlen y (k + Z.of_nat n) - 1)) with (mlen y (k + Z.of_nat n)) in H0 by lia.
    pose proof (mlen_le y (k + Z.of_nat n)). lia. }
  pose proof (Hs m ltac:(lia)). pose proof (Hmono (Z.to_nat (m' - (m + 1))) (m + 1) ltac:(lia) ltac:(lia)).
  replace (m + 1 + Z.of_nat (Z.to_nat (m' - (m + 1)))) with m' in H0 by lia.
  pose proof (dayno_shift y m d (mlen y m - d)). replace (d + (mlen y m - d)) with (mlen y m) in H1 by lia.
  pose proof (dayno_shift y m' 1 (d' - 1)). replace (1 + (d' - 1)) with d' in H2 by lia. lia.
Qed.
Lemma dayno_lex y m d y' m' d' : valid_date y m d -> valid_date y' m' d' ->
  lex3 (y, m, d) (y', m', d') -> dayno y m d < dayno y' m' d'.
Proof.
  intros V V' H. apply valid_date_spec in V, V'. cbn in H.
  destruct H as [H|[-> [H|[-> H]]]].
  - pose proof (dayno_jan1 y m d ltac:(lia) ltac:(lia)). pose proof (dayno_jan1 y' m' d' ltac:(lia) ltac:(lia)).
    pose proof (dayno_year (y + 1) y' ltac:(lia)). lia.
  - apply dayno_month; lia.
  - pose proof (dayno_shift y' m' d (d' - d)). replace (d + (d' - d)) with d' in H0 by lia. lia.
Qed.
