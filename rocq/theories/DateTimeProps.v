(** Properties C21-C23 and C70-C74: dates, times and time spans. *)
From Coq Require Import List ZArith Bool Lia.
From Verif Require Import Base StringModel DateTimeModel DateTimeSpec DateTimeCal DateTimeProofs.
Import ListNotations.
Open Scope Z_scope.

Definition is_int (z : Z) : Prop := -2147483648 <= z <= 2147483647.
Lemma ck_ok z : is_int z -> ck z = Ok z.
Proof.
  unfold is_int, ck, int_ok, INT_MIN, INT_MAX. intros H.
  destruct (Z.leb_spec (-2147483648) z), (Z.leb_spec z 2147483647); try lia. reflexivity.
Qed.
Lemma ck_inv z v : ck z = Ok v -> v = z /\ is_int z.
Proof.
  unfold is_int, ck, int_ok, INT_MIN, INT_MAX.
  destruct (Z.leb_spec (-2147483648) z), (Z.leb_spec z 2147483647); cbn; try discriminate. intros [= ->]. lia.
Qed.
Lemma ck_ub z : ~ is_int z -> ck z = UB.
Proof.
  unfold is_int, ck, int_ok, INT_MIN, INT_MAX.
  destruct (Z.leb_spec (-2147483648) z), (Z.leb_spec z 2147483647); cbn; try reflexivity. lia.
Qed.

(** ** C21 *)
(** What a date shows through the getters. *)
Definition reads (t : tm) (y m d h mi s : Z) : Prop :=
  getYear t = y /\ getMonth t = m /\ getDay t = d /\ getHour t = h /\ getMinute t = mi /\ getSecond t = s.

Lemma dt_new_core y m d hh mi s p h' :
  (if p =? p_undefined then
     if (hh <? 0) || (23 <? hh) then Thr else Ok hh
   else if negb (p =? p_AM) && negb (p =? p_PM) then Thr
   else if (hh <? 1) || (12 <? hh) then Thr
   else if (hh =? 12) && (p =? p_AM) then Ok 0
   else if (p =? p_PM) && (hh <? 12) then Ok (hh + 12) else Ok hh) = h' ->
  -2147481748 <= y <= 2147483647 ->
  dt_new y m d hh mi s p =
  if (if (m <? 1) || (12 <? m) then false else
  if d <? 1 then false else
  if ((m =? 1) || (m =? 3) || (m =? 5) || (m =? 7) || (m =? 8) || (m =? 10) || (m =? 12)) && (31 <? d) then false else
  if ((m =? 4) || (m =? 6) || (m =? 9) || (m =? 11)) && (30 <? d) then false else
  if (m =? 2) && isLeap y && (29 <? d) then false else
  if (m =? 2) && negb (isLeap y) && (28 <? d) then false else true)
  then do hour' <- h'; if (mi <? 0) || (59 <? mi) then Thr else if (s <? 0) || (59 <? s) then Thr
       else Ok (norm (Tm (y - 1900) (m - 1) d hour' mi s))
  else Thr.
Proof.
  intros <- Hy. unfold dt_new. rewrite (ck_ok (y - 1900)) by (unfold is_int; lia). cbn [rbind].
  repeat match goal with |- context [if ?b then _ else _] => destruct b; try reflexivity end.
Qed.

(** Without AM/PM: the constructor succeeds exactly on real dates and times, and then all
    getters return what was given. *)
Theorem C21_constructor_accepts_real_dates :
  forall y m d h mi s, -2147481748 <= y <= 2147483647 -> 
  (valid_date y m d /\ valid_time h mi s -> exists t, dt_new y m d h mi s p_undefined = Ok t /\ reads t y m d h mi s) /\
  (~ (valid_date y m d /\ valid_time h mi s) -> dt_new y m d h mi s p_undefined = Thr).
Proof.
  intros y m d h mi s Hy. rewrite (dt_new_core y m d h mi s p_undefined _ eq_refl Hy).
  pose proof (dt_new_date y m d) as D. change (p_undefined =? p_undefined) with true. cbv iota.
  match goal with |- context [if (if (m <? 1) || _ then _ else _) then _ else _] => idtac end.
  match type of D with ?b = true <-> _ => destruct b eqn:E end.
  - assert (V : valid_date y m d) by now apply D.
    assert (Ht : forall hh, hh = h -> valid_time h mi s -> norm (Tm (y - 1900) (m - 1) d h mi s) = Tm (y - 1900) (m - 1) d h mi s).
    { intros _ _ VT. apply norm_valid. split; cbn [t_year t_mon t_mday t_hour t_min t_sec]; auto.
      replace (y - 1900 + 1900) with y by lia. now replace (m - 1 + 1) with m by lia. }
    unfold valid_time in *.
    destruct (Z.ltb_spec h 0), (Z.ltb_spec 23 h), (Z.ltb_spec mi 0), (Z.ltb_spec 59 mi), (Z.ltb_spec s 0), (Z.ltb_spec 59 s);
      cbn [orb rbind]; (split; [intros [_ VT]; try lia|intros N; try reflexivity; exfalso; apply N; split; auto; lia]).
    eexists. split; [reflexivity|]. rewrite (Ht h) by (auto; lia).
    unfold reads, getYear, getMonth, getDay, getHour, getMinute, getSecond. cbn [t_year t_mon t_mday t_hour t_min t_sec]. lia.
  - split; [|reflexivity]. intros [V _]. apply D in V. discriminate.
Qed.
Print Assumptions C21_constructor_accepts_real_dates.
(** With AM/PM: 12 AM is midnight, 12 PM is noon. *)
Theorem C21_constructor_am_pm :
  forall y m d h mi s (pm : bool), -2147481748 <= y <= 2147483647 -> valid_date y m d -> 0 <= mi <= 59 -> 0 <= s <= 59 ->
  (1 <= h <= 12 -> exists t, dt_new y m d h mi s (if pm then p_PM else p_AM) = Ok t /\
     reads t y m d (h mod 12 + (if pm then 12 else 0)) mi s) /\
  (~ 1 <= h <= 12 -> dt_new y m d h mi s (if pm then p_PM else p_AM) = Thr).
Proof.
  intros y m d h mi s pm Hy V Hmi Hs.
  rewrite (dt_new_core y m d h mi s _ _ eq_refl Hy).
  pose proof (proj2 (dt_new_date y m d) V) as D. match type of D with ?b = true => destruct b eqn:E; [|discriminate] end.
  assert (Hn : forall hh, 0 <= hh <= 23 -> norm (Tm (y - 1900) (m - 1) d hh mi s) = Tm (y - 1900) (m - 1) d hh mi s).
  { intros hh Hh. apply norm_valid. split; cbn [t_year t_mon t_mday t_hour t_min t_sec].
    - replace (y - 1900 + 1900) with y by lia. now replace (m - 1 + 1) with m by lia.
    - unfold valid_time. lia. }
  destruct (Z.ltb_spec mi 0), (Z.ltb_spec 59 mi); try lia. destruct (Z.ltb_spec s 0), (Z.ltb_spec 59 s); try lia. cbn [orb].
  assert (R : forall hh h2, 0 <= hh <= 23 -> hh = h2 ->
    exists t, (do hour' <- Ok hh; Ok (norm (Tm (y - 1900) (m - 1) d hour' mi s))) = Ok t /\ reads t y m d h2 mi s).
  { intros hh h2 Hh <-. cbn [rbind]. eexists. split; [reflexivity|]. rewrite Hn by lia.
    unfold reads, getYear, getMonth, getDay, getHour, getMinute, getSecond. cbn [t_year t_mon t_mday t_hour t_min t_sec]. lia. }
  destruct pm; unfold p_PM, p_AM, p_undefined; cbn [Z.eqb Pos.eqb negb andb];
    destruct (Z.ltb_spec h 1), (Z.ltb_spec 12 h); cbn [orb andb]; try (split; [lia|reflexivity]); (split; [|lia]); intros _.
  - rewrite andb_false_r. cbv iota. destruct (Z.ltb_spec h 12).
    + apply R; [lia|]. rewrite Z.mod_small by lia. reflexivity.
    + assert (h = 12) by lia. subst h. apply R; [lia|reflexivity].
  - rewrite andb_true_r. destruct (Z.eqb_spec h 12).
    + subst. apply R; [lia|reflexivity].
    + apply R; [lia|]. rewrite Z.mod_small by lia. lia.
Qed.
Print Assumptions C21_constructor_am_pm.
Theorem C21_isLeapYear :
  forall y, -2147481748 <= y <= 2147483647 -> exists b, isLeapYear_static y = Ok b /\ (b = true <-> leap y).
Proof.
  intros y Hy. destruct (C21_constructor_accepts_real_dates y 1 1 0 0 0 Hy) as [A _].
  destruct A as (t & E & R).
  { split; [apply valid_date_spec; pose proof (mlen_le y 1); lia|unfold valid_time; lia]. }
  unfold isLeapYear_static. rewrite E. cbn [rbind]. eexists. split; [reflexivity|]. unfold isLeapYear.
  destruct R as (-> & _). apply isLeap_spec.
Qed.
Print Assumptions C21_isLeapYear.
Example C21_case :
  valid_date 2024 2 29 /\ ~ valid_date 1900 2 29 /\
  (exists t, dt_new 2024 2 29 23 59 59 p_undefined = Ok t /\ reads t 2024 2 29 23 59 59) /\
  dt_new 1900 2 29 0 0 0 p_undefined = Thr.
Proof.
  rewrite !valid_date_spec. split; [vm_compute; repeat split; discriminate|].
  split; [intros [_ [_ H]]; vm_compute in H; apply H; reflexivity|].
  split; [eexists; split; [vm_compute; reflexivity|vm_compute; repeat split; reflexivity]|vm_compute; reflexivity].
Qed.
(** From scripts the 64-bit arguments are cut to 32 bits first, so infinitely many unreal
    dates are accepted as other dates. *)
Theorem C21_script_fields_truncated_refuted :
  forall y m d h mi s k1 k2 k3,
  script_new (y + 4294967296 * k1) (m + 4294967296 * k2) (d + 4294967296 * k3) h mi s = script_new y m d h mi s.
Proof.
  intros. unfold script_new.
  assert (C : forall a k, cast_int (a + 4294967296 * k) = cast_int a).
  { intros a k. unfold cast_int. replace (a + 4294967296 * k + 2147483648) with (a + 2147483648 + k * 4294967296) by lia.
    now rewrite Z.mod_add by lia. }
  now rewrite !C.
Qed.
Print Assumptions C21_script_fields_truncated_refuted.
Example C21_script_case : exists t, script_new 2020 4294967297 1 0 0 0 = Ok t /\ reads t 2020 1 1 0 0 0 /\ ~ valid_date 2020 4294967297 1.
Proof.
  eexists. split; [vm_compute; reflexivity|]. split; [vm_compute; repeat split; reflexivity|].
  rewrite valid_date_spec. lia.
Qed.

(** ** C22 *)
(** The month count always moves by exactly [n] and nothing else changes. *)
Theorem C22_addMonths_total :
  forall t n, tm_valid t -> is_int n -> -1000000000 <= t_year t <= 1000000000 ->
  exists t', addMonths t n = Ok t' /\
    12 * getYear t' + getMonth t' = 12 * getYear t + getMonth t + n /\
    getDay t' = getDay t /\ getHour t' = getHour t /\ getMinute t' = getMinute t /\ getSecond t' = getSecond t.
Proof.
  intros t n V Hn Hy. destruct V as [V _]. apply valid_date_spec in V. unfold is_int in *.
  unfold addMonths.
  assert (Hq : n = 12 * Z.quot n 12 + Z.rem n 12) by (apply Z.quot_rem; lia).
  assert (Hr : -12 < Z.rem n 12 < 12).
  { pose proof (Z.rem_bound_abs n 12 ltac:(lia)). lia. }
  rewrite ck_ok by (unfold is_int; lia). cbn [rbind].
  destruct (Z.ltb_spec 11 (t_mon t + Z.rem n 12)); rewrite ck_ok by (unfold is_int; lia); cbn [rbind];
    eexists; (split; [reflexivity|]); unfold getYear, getMonth, getDay, getHour, getMinute, getSecond;
    cbn [t_year t_mon t_mday t_hour t_min t_sec]; lia.
Qed.
Print Assumptions C22_addMonths_total.
(** Guarded: with a non-negative count and a day that exists in every month the result is a
    valid date. *)
Theorem C22_addMonths_valid_partial :
  forall t n, tm_valid t -> 0 <= n <= 2147483647 -> -1000000000 <= t_year t <= 1000000000 -> getDay t <= 28 ->
  exists t', addMonths t n = Ok t' /\ tm_valid t' /\
    12 * getYear t' + getMonth t' = 12 * getYear t + getMonth t + n /\ getDay t' = getDay t.
Proof.
  intros t n V Hn Hy Hd. pose proof V as [V1 V2]. apply valid_date_spec in V1. unfold getDay in Hd.
  unfold addMonths.
  assert (Hq : n = 12 * Z.quot n 12 + Z.rem n 12) by (apply Z.quot_rem; lia).
  assert (Hr : 0 <= Z.rem n 12 < 12) by (apply Z.rem_bound_pos; lia).
  rewrite ck_ok by (unfold is_int; lia). cbn [rbind].
  destruct (Z.ltb_spec 11 (t_mon t + Z.rem n 12)); rewrite ck_ok by (unfold is_int; lia); cbn [rbind];
    (eexists; split; [reflexivity|]; split; [|unfold getYear, getMonth, getDay; cbn [t_year t_mon t_mday]; lia]);
    split; cbn [t_year t_mon t_mday t_hour t_min t_sec]; auto; apply valid_date_spec;
    match goal with |- _ /\ 1 <= _ <= ?x => assert (28 <= x) by apply mlen_le end; lia.
Qed.
Print Assumptions C22_addMonths_valid_partial.
Example C22_case : exists t, dt_new 2023 11 15 1 2 3 p_undefined = Ok t /\ tm_valid t /\
  exists t', addMonths t 14 = Ok t' /\ reads t' 2025 1 15 1 2 3.
Proof.
  eexists. split; [vm_compute; reflexivity|]. split.
  - split; [apply valid_date_spec|]; vm_compute; repeat split; discriminate.
  - eexists. split; [vm_compute; reflexivity|]. vm_compute. repeat split; reflexivity.
Qed.
(** Going back across a year boundary gives a month number of 0 or less, for every date. *)
Theorem C22_addMonths_backwards_refuted :
  forall t n, tm_valid t -> is_int n -> -1000000000 <= t_year t <= 1000000000 ->
  Z.rem n 12 <= - getMonth t -> exists t', addMonths t n = Ok t' /\ getMonth t' <= 0.
Proof.
  intros t n V Hn Hy Hm. destruct V as [V _]. apply valid_date_spec in V. unfold is_int, getMonth in *.
  unfold addMonths.
  assert (Hq : n = 12 * Z.quot n 12 + Z.rem n 12) by (apply Z.quot_rem; lia).
  assert (Hr : -12 < Z.rem n 12 < 12) by (pose proof (Z.rem_bound_abs n 12 ltac:(lia)); lia).
  rewrite ck_ok by (unfold is_int; lia). cbn [rbind].
  destruct (Z.ltb_spec 11 (t_mon t + Z.rem n 12)); [lia|]. rewrite ck_ok by (unfold is_int; lia). cbn [rbind].
  eexists. split; [reflexivity|]. cbn [t_mon]. lia.
Qed.
Print Assumptions C22_addMonths_backwards_refuted.
(** 31 January plus one month is "31 February". *)
Theorem C22_addMonths_invalid_day_refuted :
  forall y, -1000000 <= y <= 1000000 -> exists t t', dt_new y 1 31 0 0 0 p_undefined = Ok t /\ addMonths t 1 = Ok t' /\
    reads t' y 2 31 0 0 0 /\ ~ valid_date y 2 31.
Proof.
  intros y Hy. destruct (C21_constructor_accepts_real_dates y 1 31 0 0 0) as [A _]; [lia|].
  destruct A as (t & E & R). { split; [apply valid_date_spec; unfold mlen; cbn; lia|unfold valid_time; lia]. }
  unfold reads, getYear, getMonth, getDay, getHour, getMinute, getSecond in *. exists t. unfold addMonths.
  change (Z.quot 1 12) with 0. change (Z.rem 1 12) with 1.
  rewrite ck_ok by (unfold is_int; lia). cbn [rbind]. destruct (Z.ltb_spec 11 (t_mon t + 1)); [lia|].
  rewrite ck_ok by (unfold is_int; lia). cbn [rbind]. eexists. split; [exact E|]. split; [reflexivity|].
  cbn [t_year t_mon t_mday t_hour t_min t_sec]. split; [lia|].
  rewrite valid_date_spec. unfold mlen. cbn [Z.eqb Pos.eqb orb]. destruct (isLeap y); lia.
Qed.
Print Assumptions C22_addMonths_invalid_day_refuted.

(** ** C23 *)
Definition seconds_of (t : timespan) : Z :=
  ts_days t * 86400 + ts_hours t * 3600 + ts_minutes t * 60 + ts_seconds t.
Definition made (t : timespan) : Prop := exists d h m s, is_int d /\ ts_new d h m s = Ok t.
Lemma ts_new_ok d h m s t : ts_new d h m s = Ok t ->
  t = TS d h m s /\ -23 <= h <= 23 /\ -59 <= m <= 59 /\ -59 <= s <= 59.
Proof.
  unfold ts_new. destruct (Z.ltb_spec h (-23)), (Z.ltb_spec 23 h); cbn [orb]; try discriminate.
  destruct (Z.ltb_spec m (-59)), (Z.ltb_spec 59 m); cbn [orb]; try discriminate.
  destruct (Z.ltb_spec s (-59)), (Z.ltb_spec 59 s); cbn [orb]; try discriminate. intros [= <-]. split; [reflexivity|lia].
Qed.
(** The comparison is a total order with == as its equality. *)
Theorem C23_total_order :
  forall a b c, ts_lt a a = false /\ (ts_lt a b = true -> ts_lt b c = true -> ts_lt a c = true) /\
  (ts_eq a b = true <-> a = b) /\ ts_gt a b = ts_lt b a /\ ts_le a b = negb (ts_lt b a) /\ ts_ge a b = negb (ts_lt a b) /\
  ts_ne a b = negb (ts_eq a b) /\ (ts_lt a b = true \/ a = b \/ ts_lt b a = true).
Proof.
  intros [d h m s] [d' h' m' s'] [d2 h2 m2 s2]. unfold ts_gt, ts_le, ts_ge, ts_ne, ts_gt, ts_lt, ts_eq. cbn [ts_days ts_hours ts_minutes ts_seconds].
  split; [rewrite !Z.ltb_irrefl; reflexivity|].
  split. { repeat match goal with |- context [Z.ltb ?a ?b] => destruct (Z.ltb_spec a b) end; intros; try discriminate; try lia; auto. }
  split. { rewrite !andb_true_iff, !Z.eqb_eq. split; [intros [[[-> ->] ->] ->]; auto|intros [= -> -> -> ->]; auto]. }
  do 4 (split; [reflexivity|]).
  destruct (Z.ltb_spec d d'); [auto|]. destruct (Z.ltb_spec d' d); [auto|]. assert (d = d') by lia. subst.
  destruct (Z.ltb_spec h h'); [auto|]. destruct (Z.ltb_spec h' h); [auto|]. assert (h = h') by lia. subst.
  destruct (Z.ltb_spec m m'); [auto|]. destruct (Z.ltb_spec m' m); [auto|]. assert (m = m') by lia. subst.
  destruct (Z.ltb_spec s s'); [auto|]. destruct (Z.ltb_spec s' s); [auto|]. assert (s = s') by lia. subst. auto.
Qed.
Print Assumptions C23_total_order.
(** It agrees with the duration when the smaller fields are not negative. *)
Theorem C23_compare_is_duration_partial :
  forall a b, made a -> made b -> 0 <= ts_hours a -> 0 <= ts_minutes a -> 0 <= ts_seconds a ->
  0 <= ts_hours b -> 0 <= ts_minutes b -> 0 <= ts_seconds b ->
  (ts_lt a b = true <-> seconds_of a < seconds_of b) /\ (ts_eq a b = true <-> seconds_of a = seconds_of b) /\
  (ts_gt a b = true <-> seconds_of a > seconds_of b).
Proof.
  intros a b (d & h & m & s & _ & A) (d' & h' & m' & s' & _ & B).
  apply ts_new_ok in A. destruct A as (-> & A1 & A2 & A3). apply ts_new_ok in B. destruct B as (-> & B1 & B2 & B3).
  unfold seconds_of, ts_gt, ts_lt, ts_eq. cbn [ts_days ts_hours ts_minutes ts_seconds]. intros.
  rewrite !andb_true_iff, !Z.eqb_eq.
  repeat match goal with |- context [Z.ltb ?a ?b] => destruct (Z.ltb_spec a b) end; repeat split; intros; try discriminate; try lia; auto.
Qed.
Print Assumptions C23_compare_is_duration_partial.
Example C23_case : exists a b, ts_new 1 2 3 4 = Ok a /\ ts_new 1 3 0 0 = Ok b /\ ts_lt a b = true.
Proof. eexists _, _. split; [vm_compute; reflexivity|]. split; vm_compute; reflexivity. Qed.
(** With mixed signs it does not: the fields are compared, not the duration. *)
Theorem C23_mixed_signs_refuted :
  exists a b, made a /\ made b /\ ts_lt a b = false /\ seconds_of a < seconds_of b.
Proof.
  exists (TS 0 1 (-59) 0), (TS 0 0 59 0).
  split; [exists 0, 1, (-59), 0; split; [unfold is_int; lia|reflexivity]|].
  split; [exists 0, 0, 59, 0; split; [unfold is_int; lia|reflexivity]|]. split; vm_compute; reflexivity.
Qed.
Print Assumptions C23_mixed_signs_refuted.
Theorem C23_equal_durations_differ_refuted :
  forall d h m s, -23 <= h < 23 -> 0 < m <= 59 -> -59 <= s <= 59 ->
  exists a b, ts_new d h m s = Ok a /\ ts_new d (h + 1) (m - 60) s = Ok b /\
    seconds_of a = seconds_of b /\ ts_eq a b = false /\ ts_lt a b = true.
Proof.
  intros d h m s Hh Hm Hs. exists (TS d h m s), (TS d (h + 1) (m - 60) s).
  unfold ts_new.
  destruct (Z.ltb_spec h (-23)), (Z.ltb_spec 23 h); try lia. destruct (Z.ltb_spec m (-59)), (Z.ltb_spec 59 m); try lia.
  destruct (Z.ltb_spec s (-59)), (Z.ltb_spec 59 s); try lia.
  destruct (Z.ltb_spec (h + 1) (-23)), (Z.ltb_spec 23 (h + 1)); try lia.
  destruct (Z.ltb_spec (m - 60) (-59)), (Z.ltb_spec 59 (m - 60)); try lia.
  split; [reflexivity|]. split; [reflexivity|]. unfold seconds_of, ts_eq, ts_lt. cbn [ts_days ts_hours ts_minutes ts_seconds].
  split; [lia|]. split.
  - destruct (Z.eqb_spec h (h + 1)); [lia|]. now rewrite andb_false_r.
  - rewrite Z.ltb_irrefl. destruct (Z.ltb_spec h (h + 1)); [reflexivity|lia].
Qed.
Print Assumptions C23_equal_durations_differ_refuted.

(** C81. The totals are the duration in hours, minutes, seconds (the smaller fields dropped). *)
Theorem C81_totals_partial :
  forall t, made t -> -24854 <= ts_days t <= 24854 ->
  exists h m s, ts_totalHours t = Ok h /\ ts_totalMinutes t = Ok m /\ ts_totalSeconds t = Ok s /\
    s = seconds_of t /\ m * 60 + ts_seconds t = seconds_of t /\
    h * 3600 + ts_minutes t * 60 + ts_seconds t = seconds_of t.
Proof.
  intros t (d & h & m & s & _ & A) D. apply ts_new_ok in A. destruct A as (-> & A1 & A2 & A3).
  unfold ts_totalHours, ts_totalMinutes, ts_totalSeconds, seconds_of. cbn [ts_days ts_hours ts_minutes ts_seconds] in *.
  repeat (rewrite ck_ok by (unfold is_int; lia); cbn [rbind]).
  eexists _, _, _. do 3 (split; [reflexivity|]). lia.
Qed.
Print Assumptions C81_totals_partial.
Example C81_case : exists t, ts_new (-3) 22 (-5) 7 = Ok t /\ made t /\ ts_totalHours t = Ok (-50).
Proof. eexists. split; [reflexivity|]. split; [exists (-3), 22, (-5), 7; split; [unfold is_int; lia|reflexivity]|reflexivity]. Qed.
(** A constructible span of more than 24855 days (about 68 years) overflows the int in which its seconds are counted. *)
Theorem C81_total_seconds_overflow_refuted :
  forall d h m s t, is_int d -> ts_new d h m s = Ok t -> d < -24856 \/ 24856 < d -> ts_totalSeconds t = UB.
Proof.
  intros d h m s t Hd A D. apply ts_new_ok in A. destruct A as (-> & A1 & A2 & A3).
  unfold ts_totalSeconds. cbn [ts_days ts_hours ts_minutes ts_seconds].
  destruct (ck (d * 60)) eqn:E1; cbn [rbind]; try (apply ck_inv in E1); try reflexivity;
    try (unfold ck in E1; destruct (int_ok _); discriminate).
  destruct E1 as (-> & _).
  destruct (ck (d * 60 * 60)) eqn:E2; cbn [rbind]; try reflexivity; try (unfold ck in E2; destruct (int_ok _); discriminate).
  apply ck_inv in E2. destruct E2 as (-> & _).
  rewrite ck_ub by (unfold is_int; lia). reflexivity.
Qed.
Print Assumptions C81_total_seconds_overflow_refuted.


(** ** C70: difference of two dates *)
Definition tod (t : tm) : Z := getHour t * 3600 + getMinute t * 60 + getSecond t.
Lemma ts_new_in d h m s : -23 <= h <= 23 -> -59 <= m <= 59 -> -59 <= s <= 59 -> ts_new d h m s = Ok (TS d h m s).
Proof.
  intros. unfold ts_new. destruct (Z.ltb_spec h (-23)), (Z.ltb_spec 23 h); try lia.
  destruct (Z.ltb_spec m (-59)), (Z.ltb_spec 59 m); try lia. destruct (Z.ltb_spec s (-59)), (Z.ltb_spec 59 s); try lia. reflexivity.
Qed.
(** Never throws, and the exact condition under which the result is the elapsed time:
    for a later minuend its time of day must not be smaller; for an earlier one the hour must
    be greater or the time of day must not be greater. Otherwise it is off by exactly a day. *)
Theorem C70_difference :
  forall a b, tm_valid a -> tm_valid b -> is_int (Z.quot (mktime a - mktime b) 86400) ->
  exists r, dt_sub a b = Ok r /\
    (mktime b <= mktime a -> tod b <= tod a -> seconds_of r = mktime a - mktime b) /\
    (mktime b <= mktime a -> tod a < tod b -> seconds_of r = mktime a - mktime b - 86400) /\
    (mktime a < mktime b -> getHour b < getHour a \/ tod a <= tod b -> seconds_of r = mktime a - mktime b) /\
    (mktime a < mktime b -> getHour a = getHour b -> tod b < tod a -> seconds_of r = mktime a - mktime b + 86400).
Proof.
  intros a b Va Vb Hi. unfold dt_sub, dt_ge. rewrite (norm_valid a Va), (norm_valid b Vb). rewrite ck_ok by auto. cbn [rbind].
  pose proof (mktime_valid a Va) as Ea. pose proof (mktime_valid b Vb) as Eb.
  destruct Va as [_ Ta], Vb as [_ Tb]. unfold valid_time in *. unfold tod, getHour, getMinute, getSecond in *.
  set (A := mktime a) in *. set (B := mktime b) in *. clearbody A B.
  set (DA := dayno _ _ (t_mday a)) in *. set (DB := dayno _ _ (t_mday b)) in *. clearbody DA DB.
  assert (Q : A - B = 86400 * Z.quot (A - B) 86400 + Z.rem (A - B) 86400) by (apply Z.quot_rem; lia).
  set (q := Z.quot (A - B) 86400) in *. set (r := Z.rem (A - B) 86400) in *.
  destruct (Z.ltb_spec A B); cbn [negb].
  - assert (R : -86400 < r <= 0).
    { pose proof (Z.rem_nonpos (A - B) 86400 ltac:(lia) ltac:(lia)). pose proof (Z.rem_bound_abs (A - B) 86400 ltac:(lia)). unfold r. lia. }
     clearbody q r.
    destruct (Z.ltb_spec (t_sec b) (t_sec a)), (Z.ltb_spec (t_min b) (t_min a)), (Z.ltb_spec (t_hour b) (t_hour a));
      cbv zeta iota beta; rewrite ts_new_in by lia; eexists; (split; [reflexivity|]);
      unfold seconds_of; cbn [ts_days ts_hours ts_minutes ts_seconds]; repeat split; intros; try lia.
  - assert (R : 0 <= r < 86400) by (apply Z.rem_bound_pos; lia). clearbody q r.
    rewrite ts_new_in by lia. eexists. split; [reflexivity|].
    unfold seconds_of; cbn [ts_days ts_hours ts_minutes ts_seconds]; repeat split; intros; try lia.
Qed.
Print Assumptions C70_difference.
(** 01:00 minus 23:00 of the day before is reported as -22 hours instead of 2 hours. *)
Theorem C70_difference_sign_refuted :
  exists a b r, dt_new 2024 1 2 1 0 0 p_undefined = Ok a /\ dt_new 2024 1 1 23 0 0 p_undefined = Ok b /\
    dt_lt b a = true /\ dt_sub a b = Ok r /\ r = TS 0 (-22) 0 0 /\ mktime a - mktime b = 7200.
Proof.
  exists (Tm 124 0 2 1 0 0), (Tm 124 0 1 23 0 0), (TS 0 (-22) 0 0). repeat split; vm_compute; reflexivity.
Qed.
Print Assumptions C70_difference_sign_refuted.
Theorem C70_difference_earlier_refuted :
  exists a b r, dt_new 2024 1 1 1 30 0 p_undefined = Ok a /\ dt_new 2024 1 2 1 0 0 p_undefined = Ok b /\
    dt_lt a b = true /\ dt_sub a b = Ok r /\ seconds_of r = 1800 /\ mktime a - mktime b = -84600.
Proof.
  exists (Tm 124 0 1 1 30 0), (Tm 124 0 2 1 0 0), (TS 0 1 (-30) 0). repeat split; vm_compute; reflexivity.
Qed.
Print Assumptions C70_difference_earlier_refuted.
Example C70_case : tm_valid (Tm 124 0 2 1 0 0) /\ tm_valid (Tm 124 0 1 23 0 0) /\ is_int (Z.quot (mktime (Tm 124 0 2 1 0 0) - mktime (Tm 124 0 1 23 0 0)) 86400) /\
  dt_sub (Tm 124 0 2 23 0 0) (Tm 124 0 1 1 0 0) = Ok (TS 1 22 0 0).
Proof.
  repeat split; try (apply valid_date_spec); try (vm_compute; reflexivity); vm_compute; repeat split; discriminate.
Qed.

(** ** C71: adding days, hours, minutes and seconds *)
(** Every valid date has a day after and a day before. *)
Lemma next_exists y m d : valid_date y m d -> exists y' m' d', next_day (y, m, d) (y', m', d') /\ valid_date y' m' d' /\ dayno y' m' d' = dayno y m d + 1.
Proof.
  intros V. pose proof V as V0. apply valid_date_spec in V. destruct V as [Hm Hd].
  assert (N : exists y' m' d', next_day (y, m, d) (y', m', d')).
  { destruct (Z.eq_dec d (mlen y m)).
    - destruct (Z.eq_dec m 12).
      + subst. cbn. eexists _, _, _. apply nd_year.
      + eexists _, _, _. apply nd_month; [apply mlen_spec; auto|lia].
    - eexists _, _, _. eapply nd_same; [apply mlen_spec; eauto|lia]. }
  destruct N as (y' & m' & d' & N). exists y', m', d'. split; auto.
  destruct (next_dayno y m d y' m' d' N Hm ltac:(lia)) as [E W]. split; auto. apply valid_date_spec. apply W. lia.
Qed.
Lemma dayno_inj y m d y' m' d' : valid_date y m d -> valid_date y' m' d' -> dayno y m d = dayno y' m' d' -> (y, m, d) = (y', m', d').
Proof.
  intros V V' E. apply valid_date_spec in V, V'. rewrite <- (civil_dayno y m d), <- (civil_dayno y' m' d') by tauto. now rewrite E.
Qed.
Lemma days_after_ok : forall k : nat, forall y m d y' m' d', valid_date y m d -> valid_date y' m' d' ->
  (dayno y' m' d' = dayno y m d + Z.of_nat k -> days_after (Z.of_nat k) (y, m, d) (y', m', d')) /\
  (dayno y' m' d' = dayno y m d - Z.of_nat k -> days_after (- Z.of_nat k) (y, m, d) (y', m', d')).
Proof.
  induction k as [|k IH]; intros y m d y' m' d' V V'.
  - split; intros E; rewrite (dayno_inj y m d y' m' d'); auto; try lia; constructor.
  - split; intros E.
    + pose proof (civil_valid (dayno y' m' d' - 1)) as C. destruct (civil (dayno y' m' d' - 1)) as [[y2 m2] d2].
      destruct C as (C1 & C2 & C3). assert (V2 : valid_date y2 m2 d2) by (apply valid_date_spec; auto).
      destruct (next_exists y2 m2 d2 V2) as (y3 & m3 & d3 & N & V3 & E3).
      rewrite (dayno_inj y' m' d' y3 m3 d3) by (auto; lia).
      replace (Z.of_nat (S k)) with (Z.of_nat k + 1) by lia. eapply da_up; [|exact N]. apply (IH y m d y2 m2 d2); auto. lia.
    + destruct (next_exists y' m' d' V') as (y3 & m3 & d3 & N & V3 & E3).
      replace (- Z.of_nat (S k)) with (- Z.of_nat k - 1) by lia. eapply da_down; [|exact N]. apply (IH y m d y3 m3 d3); auto. lia.
Qed.
(** addDays: the date [n] calendar days away at the same time of day, |n| <= 24855. *)
Theorem C71_addDays_partial :
  forall t n, tm_valid t -> -24855 <= n <= 24855 ->
  exists t', addDays t n = Ok t' /\ tm_valid t' /\
    days_after n (getYear t, getMonth t, getDay t) (getYear t', getMonth t', getDay t') /\ tod t' = tod t.
Proof.
  intros t n V Hn. unfold addDays. rewrite ck_ok by (unfold is_int; lia). cbn [rbind]. eexists. split; [reflexivity|].
  unfold addSeconds. pose proof (localtime_valid (mktime t + n * 86400)) as V'. split; auto.
  pose proof (localtime_mktime (mktime t + n * 86400)) as E.
  set (t' := localtime (mktime t + n * 86400)) in *. clearbody t'.
  rewrite (mktime_valid t' V'), (mktime_valid t V) in E.
  destruct V as [V T], V' as [V' T']. unfold valid_time in *. unfold tod, getYear, getMonth, getDay, getHour, getMinute, getSecond.
  set (D := dayno _ _ (t_mday t)) in *. set (D' := dayno _ _ (t_mday t')) in *.
  assert (D' = D + n) by lia. split; [|lia]. unfold D, D' in *.
  destruct (Z.leb_spec 0 n).
  - replace n with (Z.of_nat (Z.to_nat n)) by lia. apply (proj1 (days_after_ok (Z.to_nat n) _ _ _ _ _ _ V V')). lia.
  - replace n with (- Z.of_nat (Z.to_nat (- n))) by lia. apply (proj2 (days_after_ok (Z.to_nat (- n)) _ _ _ _ _ _ V V')). lia.
Qed.
Print Assumptions C71_addDays_partial.
Theorem C71_addDays_overflow_refuted : forall t n, n < -24855 \/ 24855 < n -> addDays t n = UB.
Proof. intros t n Hn. unfold addDays. rewrite ck_ub by (unfold is_int; lia). reflexivity. Qed.
Print Assumptions C71_addDays_overflow_refuted.
Theorem C71_addHours_Minutes_Seconds :
  forall t n, (-596523 <= n <= 596523 -> exists t', addHours t n = Ok t' /\ tm_valid t' /\ mktime t' = mktime t + n * 3600) /\
  (-35791394 <= n <= 35791394 -> exists t', addMinutes t n = Ok t' /\ tm_valid t' /\ mktime t' = mktime t + n * 60) /\
  (tm_valid (addSeconds t n) /\ mktime (addSeconds t n) = mktime t + n).
Proof.
  intros t n. unfold addHours, addMinutes, addSeconds. split; [|split].
  - intros H. rewrite ck_ok by (unfold is_int; lia). eexists. split; [reflexivity|]. split; [apply localtime_valid|apply localtime_mktime].
  - intros H. rewrite ck_ok by (unfold is_int; lia). eexists. split; [reflexivity|]. split; [apply localtime_valid|apply localtime_mktime].
  - split; [apply localtime_valid|apply localtime_mktime].
Qed.
Print Assumptions C71_addHours_Minutes_Seconds.
Example C71_case : exists t, dt_new 2024 2 28 7 0 0 p_undefined = Ok t /\ exists t', addDays t 2 = Ok t' /\ reads t' 2024 3 1 7 0 0.
Proof. eexists. split; [vm_compute; reflexivity|]. eexists. split; [vm_compute; reflexivity|]. vm_compute. repeat split; reflexivity. Qed.

(** ** C74: comparison of dates is the order of their fields *)
Definition lex6 (a b : tm) : Prop :=
  lex3 (getYear a, getMonth a, getDay a) (getYear b, getMonth b, getDay b) \/
  ((getYear a, getMonth a, getDay a) = (getYear b, getMonth b, getDay b) /\
   lex3 (getHour a, getMinute a, getSecond a) (getHour b, getMinute b, getSecond b)).
Lemma lex6_lt a b : tm_valid a -> tm_valid b -> lex6 a b -> mktime a < mktime b.
Proof.
  intros Va Vb L. rewrite (mktime_valid a Va), (mktime_valid b Vb). destruct Va as [Va Ta], Vb as [Vb Tb]. unfold valid_time in *.
  unfold lex6, getYear, getMonth, getDay, getHour, getMinute, getSecond in L.
  destruct L as [L|[E L]].
  - pose proof (dayno_lex _ _ _ _ _ _ Va Vb L). lia.
  - inversion E as [[E1 E2 E3]]. rewrite E1, E2, E3. cbn in L. lia.
Qed.
Lemma lex6_total a b : lex6 a b \/ a = b \/ lex6 b a.
Proof.
  destruct a as [y m d h mi s], b as [y' m' d' h' mi' s'].
  unfold lex6, getYear, getMonth, getDay, getHour, getMinute, getSecond, lex3. cbn [t_year t_mon t_mday t_hour t_min t_sec].
  destruct (Z.lt_total y y') as [H|[->|H]]; [left; lia| |right; right; lia].
  destruct (Z.lt_total m m') as [H|[->|H]]; [left; lia| |right; right; lia].
  destruct (Z.lt_total d d') as [H|[->|H]]; [left; lia| |right; right; lia].
  destruct (Z.lt_total h h') as [H|[->|H]]; [left; right; split; [reflexivity|lia]| |right; right; right; split; [reflexivity|lia]].
  destruct (Z.lt_total mi mi') as [H|[->|H]]; [left; right; split; [reflexivity|lia]| |right; right; right; split; [reflexivity|lia]].
  destruct (Z.lt_total s s') as [H|[->|H]]; [left; right; split; [reflexivity|lia]| |right; right; right; split; [reflexivity|lia]].
  auto.
Qed.
Theorem C74_comparison_is_field_order :
  forall a b, tm_valid a -> tm_valid b ->
  (dt_lt a b = true <-> lex6 a b) /\ (dt_eq a b = true <-> a = b) /\ (dt_gt a b = true <-> lex6 b a) /\
  dt_le a b = negb (dt_gt a b) /\ dt_ge a b = negb (dt_lt a b) /\ dt_ne a b = negb (dt_eq a b).
Proof.
  intros a b Va Vb. unfold dt_lt, dt_gt, dt_le, dt_ge, dt_eq, dt_ne. rewrite !Z.ltb_lt, Z.eqb_eq.
  pose proof (lex6_lt a b Va Vb). pose proof (lex6_lt b a Vb Va).
  repeat split; auto; intros; destruct (lex6_total a b) as [L|[->|L]]; auto; try (specialize (H L)); try (specialize (H0 L)); subst; try lia; auto.
Qed.
Print Assumptions C74_comparison_is_field_order.

(** ** C72: parse inverts toString *)
Definition iso_format : list Z := [121;121;121;121;45;77;77;45;100;100;32;72;72;58;109;109;58;115;115].
Definition isdig (c : Z) : Prop := 48 <= c <= 57.
Lemma fmt2 n : 0 <= n < 100 -> fmt_d 2 n = [48 + n / 10; 48 + n mod 10].
Proof.
  intros H. unfold fmt_d. destruct (Z.ltb_spec n 0); [lia|]. rewrite Z.abs_eq by lia.
  cbn [digits]. destruct (Z.ltb_spec n 10).
  - cbn. rewrite Z.div_small, Z.mod_small by lia. reflexivity.
  - destruct (Z.ltb_spec (n / 10) 10); [|lia]. cbn. rewrite (Z.mod_small (n / 10)) by lia. reflexivity.
Qed.
Lemma fmt4 n : 1000 <= n < 10000 ->
  fmt_d 0 n = [48 + n / 1000; 48 + n / 100 mod 10; 48 + n / 10 mod 10; 48 + n mod 10].
Proof.
  intros H. unfold fmt_d. destruct (Z.ltb_spec n 0); [lia|]. rewrite Z.abs_eq by lia.
  cbn [digits]. destruct (Z.ltb_spec n 10); [lia|]. destruct (Z.ltb_spec (n / 10) 10); [lia|].
  destruct (Z.ltb_spec (n / 10 / 10) 10); [lia|]. destruct (Z.ltb_spec (n / 10 / 10 / 10) 10); [|lia]. cbn [app length].
  change (Z.to_nat (0 - Z.of_nat 4 - 0)) with 0%nat. cbn [repeat app]. repeat (f_equal; try lia).
Qed.
Lemma atoi_cons c l acc : isdig c -> atoi (c :: l) acc = atoi l (Some (match acc with Some a => a | None => 0 end * 10 + (c - 48))).
Proof. intros H. cbn [atoi]. unfold isdig in H. destruct (Z.leb_spec 48 c), (Z.leb_spec c 57); try lia. reflexivity. Qed.
Lemma strtol_dig c l : isdig c -> strtol (c :: l) = atoi (c :: l) None.
Proof.
  intros H. unfold strtol, isdig in *. cbn [skip_blank].
  destruct (Z.eqb_spec c 32); [lia|]. destruct (Z.leb_spec c 13); [lia|]. rewrite andb_false_r. cbn [orb].
  assert (C : c = 48 \/ c = 49 \/ c = 50 \/ c = 51 \/ c = 52 \/ c = 53 \/ c = 54 \/ c = 55 \/ c = 56 \/ c = 57) by lia.
  decompose [or] C; subst; reflexivity.
Qed.
Lemma num2 n : 0 <= n < 100 -> strtol [48 + n / 10; 48 + n mod 10] = Some n.
Proof.
  intros H. rewrite strtol_dig by (unfold isdig; lia). rewrite !atoi_cons by (unfold isdig; lia). cbn [atoi]. f_equal. lia.
Qed.
Lemma num4 n : 1000 <= n < 10000 -> strtol [48 + n / 1000; 48 + n / 100 mod 10; 48 + n / 10 mod 10; 48 + n mod 10] = Some n.
Proof.
  intros H. rewrite strtol_dig by (unfold isdig; lia). rewrite !atoi_cons by (unfold isdig; lia). cbn [atoi]. f_equal. lia.
Qed.
Lemma cast_small z : is_int z -> cast_int z = z.
Proof. unfold is_int, cast_int. intros. rewrite Z.mod_small; lia. Qed.
(** One step of the parse loop when the character continues the pattern, and when it ends it. *)
Lemma pl_start c c' l i fi isl v f : letter c = true ->
  parse_loop (c :: c' :: l) i [] fi isl v f = parse_loop (c' :: l) (S i) [c] i true v f.
Proof. intros H. cbn [parse_loop]. rewrite H. cbn [last]. rewrite Z.eqb_refl. reflexivity. Qed.
Lemma pl_same c c' l i p fi isl v f : letter c = true -> p <> [] -> last p 0 = c ->
  parse_loop (c :: c' :: l) i p fi isl v f = parse_loop (c' :: l) (S i) (p ++ [c]) fi true v f.
Proof.
  intros H Hp Hl. change (parse_loop (c :: c' :: l) i p fi isl v f) with
    (let '(isl, p, fi) :=
        if letter c then
          match p with
          | [] => (true, [c], i)
          | _ => if c =? last p 0 then (true, p ++ [c], fi) else (true, p, fi)
          end
        else (isl, p, fi) in
      match p with
      | [] => Thr
      | _ =>
        do r <- (if negb (c =? last p 0) || false
                 then do f' <- parse_section p fi v f; Ok (f', @nil Z) else Ok (f, p));
        let '(f', p') := r in
        match p' with
        | [] => if isl then parse_loop (c' :: l) (S i) [c] i isl v f' else parse_loop (c' :: l) (S i) [] fi isl v f'
        | _ => parse_loop (c' :: l) (S i) p' fi isl v f'
        end
      end).
  rewrite H, Hl, Z.eqb_refl. destruct p as [|x p]; [congruence|]. cbv zeta iota beta.
  rewrite last_last, Z.eqb_refl. cbn [negb orb rbind]. reflexivity.
Qed.
Lemma pl_end c c' l i p fi isl v f : p <> [] -> last p 0 <> c -> isl = true ->
  parse_loop (c :: c' :: l) i p fi isl v f =
  (do f' <- parse_section p fi v f; parse_loop (c' :: l) (S i) [c] i true v f').
Proof.
  intros Hp Hl ->. change (parse_loop (c :: c' :: l) i p fi true v f) with
    (let '(isl, p, fi) :=
        if letter c then
          match p with
          | [] => (true, [c], i)
          | _ => if c =? last p 0 then (true, p ++ [c], fi) else (true, p, fi)
          end
        else (true, p, fi) in
      match p with
      | [] => Thr
      | _ =>
        do r <- (if negb (c =? last p 0) || false
                 then do f' <- parse_section p fi v f; Ok (f', @nil Z) else Ok (f, p));
        let '(f', p') := r in
        match p' with
        | [] => if isl then parse_loop (c' :: l) (S i) [c] i isl v f' else parse_loop (c' :: l) (S i) [] fi isl v f'
        | _ => parse_loop (c' :: l) (S i) p' fi isl v f'
        end
      end).
  assert (E : (c =? last p 0) = false) by (destruct (Z.eqb_spec c (last p 0)); congruence).
  rewrite E. destruct p as [|x p]; [congruence|]. destruct (letter c); cbv zeta iota beta; rewrite E; cbn [negb orb];
    destruct (parse_section (x :: p) fi v f); reflexivity.
Qed.
Lemma pl_last c i p fi isl v f : letter c = true -> p <> [] -> last p 0 = c ->
  parse_loop [c] i p fi isl v f = parse_section (p ++ [c]) fi v f.
Proof.
  intros H Hp Hl. cbn [parse_loop]. rewrite H, Hl, Z.eqb_refl. destruct p as [|x p]; [congruence|].
  cbn [app]. cbv zeta iota beta. rewrite orb_true_r. destruct (parse_section (x :: p ++ [c]) fi v f); reflexivity.
Qed.
Lemma parse_iso v f y mo d h mi s : length v = 19%nat ->
  parse_int_value 0 4 v = Ok y -> parse_int_value 5 2 v = Ok mo -> parse_int_value 8 2 v = Ok d ->
  parse_int_value 11 2 v = Ok h -> parse_int_value 14 2 v = Ok mi -> parse_int_value 17 2 v = Ok s ->
  parse_loop iso_format 0 [] 0 false v f = Ok (F y mo d h mi s (f_p f)).
Proof.
  intros L H1 H2 H3 H4 H5 H6. unfold iso_format.
  rewrite pl_start by reflexivity.
  do 3 (rewrite pl_same by (reflexivity || discriminate); cbn [app]).
  Ltac sec L H := unfold parse_section at 1; rewrite L; cbn [Nat.add length Nat.leb];
    repeat match goal with |- context [leq ?a ?b] => let r := eval compute in (leq a b) in change (leq a b) with r end;
    cbv iota; rewrite ?H; cbn [rbind f_y f_mo f_d f_h f_mi f_s f_p].
  Ltac sect L H := rewrite pl_end by (reflexivity || discriminate); sec L H; rewrite pl_end by (reflexivity || discriminate); sec L H;
    rewrite ?pl_same by (reflexivity || discriminate); cbn [app].
  sect L H1. sect L H2. sect L H3. sect L H4. sect L H5. rewrite pl_last by (reflexivity || discriminate). cbn [app]. sec L H6.
  reflexivity.
Qed.
Theorem C72_parse_inverts_toString :
  forall t, tm_valid t -> 1000 <= getYear t <= 9999 -> dt_parse iso_format (dt_toString t) = Ok t.
Proof.
  intros t V Hy. pose proof V as [Vd Vt]. apply valid_date_spec in Vd. unfold valid_time in Vt.
  pose proof (mlen_le (t_year t + 1900) (t_mon t + 1)).
  unfold dt_parse, dt_toString. unfold getYear, getMonth, getDay, getHour, getMinute, getSecond in *.
  rewrite fmt4 by lia. rewrite !fmt2 by lia. cbn [app].
  change (match iso_format with [] => ?a | _ => ?b end) with b.
  erewrite parse_iso; [|reflexivity|..].
  2-7: unfold parse_int_value; cbn [firstn skipn]; rewrite ?num4, ?num2 by lia; rewrite cast_small by (unfold is_int; lia); reflexivity.
  cbn [rbind f_y f_mo f_d f_h f_mi f_s f_p].
  destruct (C21_constructor_accepts_real_dates (t_year t + 1900) (t_mon t + 1) (t_mday t) (t_hour t) (t_min t) (t_sec t)) as [A _]; [lia|].
  destruct A as (t' & E & R). { split; [apply valid_date_spec|unfold valid_time]; lia. }
  rewrite E. f_equal. unfold reads, getYear, getMonth, getDay, getHour, getMinute, getSecond in R.
  destruct t as [x1 x2 x3 x4 x5 x6], t' as [z1 z2 z3 z4 z5 z6]. cbn [t_year t_mon t_mday t_hour t_min t_sec] in *. f_equal; lia.
Qed.
Print Assumptions C72_parse_inverts_toString.
Example C72_case :
  dt_toString (Tm 124 1 29 7 5 0) = [50;48;50;52;45;48;50;45;50;57;32;48;55;58;48;53;58;48;48] /\
  dt_parse iso_format (dt_toString (Tm 124 1 29 7 5 0)) = Ok (Tm 124 1 29 7 5 0).
Proof. split; vm_compute; reflexivity. Qed.
(** Outside of four-digit years the columns shift. *)
Theorem C72_short_year_refuted :
  exists t, tm_valid t /\ getYear t = 999 /\ dt_parse iso_format (dt_toString t) <> Ok t.
Proof.
  exists (Tm (-901) 11 1 0 0 0). split; [split; [apply valid_date_spec|]; vm_compute; repeat split; discriminate|].
  split; [reflexivity|]. vm_compute. discriminate.
Qed.
Print Assumptions C72_short_year_refuted.
(** A format that starts with a character other than a letter always throws. *)
Theorem C72_leading_separator_refuted : forall c f v, letter c = false -> dt_parse (c :: f) v = Thr.
Proof. intros c f v H. unfold dt_parse. cbn [parse_loop]. rewrite H. reflexivity. Qed.
Print Assumptions C72_leading_separator_refuted.

(** ** C73: formatted output *)
(** One run of a letter. *)
Definition run (c : Z) (n : nat) : list Z := repeat c (S n).
Lemma last_run c n : last (run c n) 0 = c.
Proof. induction n; [reflexivity|]. exact IHn. Qed.
Lemma run_match {A} c n (a b : A) : match run c n with [] => a | _ :: _ => b end = b.
Proof. reflexivity. Qed.
Lemma run_snoc c n : run c n ++ [c] = run c (S n).
Proof. unfold run. induction n; [reflexivity|]. cbn [repeat app] in *. now rewrite IHn. Qed.
Lemma fmt_loop_run t c k : forall n l ret, letter c = true -> l <> [] ->
  fmt_loop t (repeat c n ++ l) (run c k) ret = fmt_loop t l (run c (k + n)) ret.
Proof.
  intros n. revert k. induction n; intros k l ret Hc Hl; [cbn [repeat app]; now rewrite Nat.add_0_r|].
  cbn [repeat app fmt_loop]. rewrite Hc. rewrite !run_match.
  rewrite last_run, Z.eqb_refl, run_snoc, run_match, last_run, Z.eqb_refl. cbn [negb orb].
  assert (N : (match repeat c n ++ l with [] => true | _ :: _ => false end) = false).
  { destruct (repeat c n ++ l) eqn:E; auto. apply app_eq_nil in E. tauto. }
  rewrite N, run_match. rewrite IHn by auto. f_equal. f_equal. lia.
Qed.
(** A format made of letter runs, each followed by one other character: every run is
    replaced by its section and the characters between are kept. *)
Fixpoint pieces (l : list (Z * nat * Z)) : list Z :=
  match l with [] => [] | (c, n, s) :: r => run c n ++ s :: pieces r end.
Fixpoint shown (t : tm) (l : list (Z * nat * Z)) : list Z :=
  match l with [] => [] | (c, n, s) :: r => section t (run c n) ++ s :: shown t r end.
Lemma fmt_loop_pieces t : forall l ret, Forall (fun x => let '(c, _, s) := x in letter c = true /\ letter s = false) l ->
  fmt_loop t (pieces l) [] ret = ret ++ shown t l.
Proof.
  induction l as [|[[c n] s] l IH]; intros ret F; [cbn; now rewrite app_nil_r|].
  inversion F as [|? ? H0 F']; subst. destruct H0 as [Hc Hs]. cbn [pieces shown].
  change (run c n ++ s :: pieces l) with (c :: (repeat c n ++ s :: pieces l)). cbn [fmt_loop]. rewrite Hc. cbn [last].
  rewrite Z.eqb_refl. cbn [negb orb].
  assert (N : (match repeat c n ++ s :: pieces l with [] => true | _ :: _ => false end) = false) by (destruct n; reflexivity).
  rewrite N. cbv iota. change [c] with (run c 0). rewrite fmt_loop_run by (auto; discriminate). cbn [Nat.add fmt_loop].
  rewrite Hs, run_match, last_run.
  assert (Hcs : (s =? c) = false) by (destruct (Z.eqb_spec s c); auto; congruence).
  rewrite Hcs. cbn [negb orb].
  rewrite IH by auto. rewrite <- !app_assoc. reflexivity.
Qed.
Lemma lower_letter c : letter (lower_c c) = letter c.
Proof.
  unfold letter, lower_c. destruct (Z.leb_spec 65 c), (Z.leb_spec c 90); cbn [andb orb];
  repeat match goal with |- context [Z.leb ?x ?y] => destruct (Z.leb_spec x y) end; cbn [andb orb]; auto; lia.
Qed.
Definition lower_piece (x : Z * nat * Z) : Z * nat * Z := let '(c, n, s) := x in (lower_c c, n, s).
Lemma map_pieces l : Forall (fun x => let '(c, _, s) := x in letter c = true /\ letter s = false) l ->
  map lower_c (pieces l) = pieces (map lower_piece l).
Proof.
  induction 1 as [|[[c n] s] l H0 F IH]; [reflexivity|]. destruct H0 as [Hc Hs]. cbn [pieces map lower_piece]. rewrite map_app. cbn [map]. rewrite IH.
  f_equal; [unfold run; generalize (S n) as k; induction k as [|k IHk]; [reflexivity|cbn; now rewrite IHk]|]. f_equal.
  unfold lower_c. unfold letter in Hs. apply orb_false_iff in Hs. now destruct Hs as [_ ->].
Qed.
Theorem C73_format_pieces :
  forall t l, l <> [] -> Forall (fun x => let '(c, _, s) := x in letter c = true /\ letter s = false) l ->
  dt_format t (pieces l) = shown t (map lower_piece l).
Proof.
  intros t l Hne F. unfold dt_format. rewrite (map_pieces l F).
  assert (F' : Forall (fun x => let '(c, _, s) := x in letter c = true /\ letter s = false) (map lower_piece l)).
  { apply Forall_map. apply Forall_impl with (2 := F). intros [[c n] s] [A B]. cbn. rewrite lower_letter. auto. }
  pose proof (fmt_loop_pieces t _ [] F') as E. cbn [app] in E.
  destruct (pieces (map lower_piece l)) eqn:Ep; [|exact E].
  destruct l as [|[[c n] s] l]; [congruence|]. discriminate.
Qed.
Print Assumptions C73_format_pieces.
(** The lower-case sections are right. *)
Theorem C73_sections :
  forall t, section t [121;121;121;121] = fmt_d 4 (getYear t) /\ section t [100;100] = fmt_d 2 (getDay t) /\
  section t [109;109] = fmt_d 2 (getMinute t) /\ section t [115;115] = fmt_d 2 (getSecond t).
Proof. intros t. repeat split; reflexivity. Qed.
Print Assumptions C73_sections.
Example C73_case : dt_format (Tm 124 1 29 7 5 9) (pieces [(121, 3%nat, 47); (100, 1%nat, 32); (109, 1%nat, 46)]) =
  [50;48;50;52;47;50;57;32;48;53;46].
Proof. vm_compute. reflexivity. Qed.
(** The month can never be printed: the format is lower-cased first, so for every format
    the text is the same for dates that differ only in the month. *)
Lemma section_month t m p : Forall (fun c => ~ 65 <= c <= 90) p ->
  section (Tm (t_year t) m (t_mday t) (t_hour t) (t_min t) (t_sec t)) p = section t p.
Proof.
  intros F. unfold section, getYear, getMonth, getDay, getHour, getMinute, getSecond. cbn [t_year t_mon t_mday t_hour t_min t_sec].
  assert (L : forall a r, 65 <= a <= 90 -> leq p (a :: r) = false).
  { intros a r Ha. unfold leq. destruct (list_eq_dec Z.eq_dec p (a :: r)); auto. subst. inversion F; subst. contradiction. }
  rewrite !(L 77) by lia. reflexivity.
Qed.
Lemma fmt_loop_month t m : forall l p ret, Forall (fun c => ~ 65 <= c <= 90) l -> Forall (fun c => ~ 65 <= c <= 90) p ->
  fmt_loop (Tm (t_year t) m (t_mday t) (t_hour t) (t_min t) (t_sec t)) l p ret = fmt_loop t l p ret.
Proof.
  induction l as [|c l IH]; intros p ret Fl Fp; [reflexivity|]. inversion Fl; subst. cbn [fmt_loop].
  set (p1 := if letter c then match p with [] => [c] | _ => if c =? last p 0 then p ++ [c] else p end else p).
  assert (F1 : Forall (fun c => ~ 65 <= c <= 90) p1).
  { unfold p1. destruct (letter c); auto. destruct p; [repeat constructor; auto|].
    destruct (c =? last (z :: p) 0); auto. apply Forall_app. auto. }
  rewrite section_month by auto.
  set (fire := match p1 with [] => false | _ => _ end).
  destruct (letter c); destruct fire; rewrite ?IH; auto. destruct p1; auto.
Qed.
Theorem C73_month_never_printed_refuted :
  forall t m f, f <> [] -> dt_format (Tm (t_year t) m (t_mday t) (t_hour t) (t_min t) (t_sec t)) f = dt_format t f.
Proof.
  intros t m f Hf. unfold dt_format.
  assert (F : Forall (fun c => ~ 65 <= c <= 90) (map lower_c f)).
  { apply Forall_map, Forall_forall. intros c _. unfold lower_c. destruct (Z.leb_spec 65 c), (Z.leb_spec c 90); cbn [andb]; lia. }
  destruct f as [|c f]; [congruence|]. cbn [map] in *. now rewrite fmt_loop_month.
Qed.
Print Assumptions C73_month_never_printed_refuted.
Theorem C73_MM_prints_minutes_refuted : forall t, dt_format t [77; 77] = fmt_d 2 (getMinute t).
Proof. intros t. reflexivity. Qed.
Print Assumptions C73_MM_prints_minutes_refuted.
(** A final single letter directly after another letter is dropped. *)
Theorem C73_last_letter_dropped_refuted :
  forall t, dt_format t [121; 121; 121; 121; 100] = fmt_d 4 (getYear t).
Proof. intros t. reflexivity. Qed.
Print Assumptions C73_last_letter_dropped_refuted.
