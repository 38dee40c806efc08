(** The calendar functions of the DateTime model are inverse to each other on one era. *)
From Coq Require Import List ZArith Bool Lia Znumtheory.
From Verif Require Import Base StringModel DateTimeModel DateTimeSpec.
Import ListNotations.
Open Scope Z_scope.

Lemma rem0_div a b : b <> 0 -> (Z.rem a b =? 0) = true <-> (b | a).
Proof.
  intros Hb. rewrite Z.eqb_eq. split; intros H.
  - apply Z.rem_divide in H; auto.
  - apply Z.rem_divide; auto.
Qed.
Lemma isLeap_spec y : isLeap y = true <-> leap y.
Proof.
  unfold isLeap, leap. rewrite orb_true_iff, andb_true_iff, negb_true_iff, !rem0_div by lia.
  rewrite <- not_true_iff_false, rem0_div by lia.
  split; [intros [[A B]|A]; auto|intros [A [B|B]]; auto].
  split; auto. apply Z.divide_trans with 400; auto. exists 100. reflexivity.
Qed.
Lemma isLeap_period y k : isLeap (y + 400 * k) = isLeap y.
Proof.
  apply eq_true_iff_eq. rewrite !isLeap_spec. unfold leap.
  assert (H : forall q, (q | 400) -> (q | y + 400 * k) <-> (q | y)).
  { intros q Hq. split; intros D.
    - replace y with ((y + 400 * k) - 400 * k) by lia. apply Z.divide_sub_r; auto. now apply Z.divide_mul_l.
    - apply Z.divide_add_r; auto. now apply Z.divide_mul_l. }
  rewrite !H; [tauto|exists 1|exists 4|exists 100]; reflexivity.
Qed.
(** Number of days of a month, computed. *)
Definition mlen (y m : Z) : Z :=
  if (m =? 4) || (m =? 6) || (m =? 9) || (m =? 11) then 30
  else if m =? 2 then if isLeap y then 29 else 28 else 31.
Lemma mlen_spec y m k : month_length y m k <-> 1 <= m <= 12 /\ k = mlen y m.
Proof.
  unfold month_length, mlen. split.
  - intros [[H ->]|[[H ->]|[(-> & H & ->)|(-> & H & ->)]]].
    + cbn in H. decompose [or] H; subst; try (split; [lia|reflexivity]); contradiction.
    + cbn in H. decompose [or] H; subst; try (split; [lia|reflexivity]); contradiction.
    + split; [lia|]. apply isLeap_spec in H. cbn. now rewrite H.
    + split; [lia|]. rewrite <- isLeap_spec, not_true_iff_false in H. cbn. now rewrite H.
  - intros [Hm ->].
    assert (C : m = 1 \/ m = 2 \/ m = 3 \/ m = 4 \/ m = 5 \/ m = 6 \/ m = 7 \/ m = 8 \/ m = 9 \/ m = 10 \/ m = 11 \/ m = 12) by lia.
    decompose [or] C; subst; cbn; try (left; split; [tauto|reflexivity]); try (right; left; split; [tauto|reflexivity]).
    destruct (isLeap y) eqn:E; [right; right; left|right; right; right].
    + rewrite isLeap_spec in E. auto.
    + rewrite <- not_true_iff_false, isLeap_spec in E. auto.
Qed.
Lemma valid_date_spec y m d : valid_date y m d <-> 1 <= m <= 12 /\ 1 <= d <= mlen y m.
Proof.
  unfold valid_date. split.
  - intros (k & H & Hd). apply mlen_spec in H. destruct H as [H ->]. auto.
  - intros [Hm Hd]. exists (mlen y m). split; auto. now apply mlen_spec.
Qed.

(** ** The calendar functions are inverse to each other *)
Definition doe_of (yoe m d : Z) : Z :=
  yoe * 365 + yoe / 4 - yoe / 100 + ((153 * (if m <=? 2 then m + 9 else m - 3) + 2) / 5 + d - 1).
Definition civil_doe (doe : Z) : Z * Z * Z :=
  let yoe := (doe - doe / 1460 + doe / 36524 - doe / 146096) / 365 in
  let doy := doe - (365 * yoe + yoe / 4 - yoe / 100) in
  let mp := (5 * doy + 2) / 153 in
  let d := doy - (153 * mp + 2) / 5 + 1 in
  let m := if mp <? 10 then mp + 3 else mp - 9 in
  (yoe, m, d).
Definition bump (m : Z) : Z := if m <=? 2 then 1 else 0.

Fixpoint all_up (n : nat) (i : Z) (p : Z -> bool) : bool :=
  match n with O => true | S k => p i && all_up k (i + 1) p end.
Lemma all_up_ok : forall n i p, all_up n i p = true -> forall j, i <= j < i + Z.of_nat n -> p j = true.
Proof.
  induction n; intros i p H j Hj; [lia|]. cbn [all_up] in H. apply andb_true_iff in H. destruct H as [A B].
  destruct (Z.eq_dec i j); [now subst|]. apply (IHn (i + 1) p B). lia.
Qed.

Lemma mlen_le y m : 28 <= mlen y m <= 31.
Proof. unfold mlen. destruct ((m =? 4) || (m =? 6) || (m =? 9) || (m =? 11)), (m =? 2), (isLeap y); lia. Qed.

(** First day of a year of the era, counted from March; its length. *)
Definition ystart (y : Z) : Z := y * 365 + y / 4 - y / 100.
Definition ylen (y : Z) : Z := if isLeap (y + 1) then 366 else 365.
Definition yfun (doe : Z) : Z := doe - doe / 1460 + doe / 36524 - doe / 146096.
Lemma yfun_step d : 0 <= d -> d + 1 < 146097 -> yfun d <= yfun (d + 1).
Proof.
  intros H1 H2. unfold yfun.
  assert (A : forall k, 0 < k -> d / k <= (d + 1) / k <= d / k + 1).
  { intros k Hk. split; [apply Z.div_le_mono; lia|]. replace (d / k + 1) with ((d + 1 * k) / k) by (apply Z.div_add; lia).
    apply Z.div_le_mono; lia. }
  pose proof (A 1460 ltac:(lia)). pose proof (A 36524 ltac:(lia)).
  destruct (Z.eq_dec (d + 1) 146096) as [E|E].
  - assert (d = 146095) by lia. subst d. vm_compute. discriminate.
  - destruct (Z.eq_dec d 146096) as [E'|E']; [lia|].
    assert (d / 146096 = 0) by (apply Z.div_small; lia). assert ((d + 1) / 146096 = 0) by (apply Z.div_small; lia). lia.
Qed.
Lemma yfun_mono : forall n : nat, forall d, 0 <= d -> d + Z.of_nat n < 146097 -> yfun d <= yfun (d + Z.of_nat n).
Proof.
  induction n; intros d H1 H2; [rewrite Z.add_0_r; lia|].
  specialize (IHn d H1 ltac:(lia)). pose proof (yfun_step (d + Z.of_nat n) ltac:(lia) ltac:(lia)).
  replace (d + Z.of_nat (S n)) with (d + Z.of_nat n + 1) by lia. lia.
Qed.
Lemma years_ok : all_up 400 0 (fun y =>
  (yfun (ystart y) / 365 =? y) && (yfun (ystart y + ylen y - 1) / 365 =? y) && (ystart y + ylen y - 1 <? 146097) &&
  ((ystart (y + 1) =? ystart y + ylen y) || (y =? 399))) = true.
Proof. vm_compute. reflexivity. Qed.
Lemma year_ok y k : 0 <= y < 400 -> 0 <= k < ylen y -> yfun (ystart y + k) / 365 = y /\ 0 <= ystart y + k < 146097.
Proof.
  intros Hy Hk. pose proof (all_up_ok _ _ _ years_ok y ltac:(lia)) as C. cbv beta in C.
  rewrite !andb_true_iff, !Z.eqb_eq, Z.ltb_lt in C. destruct C as [[[C1 C2] C3] _].
  assert (S0 : 0 <= ystart y).
  { unfold ystart. assert (y / 100 <= y) by (apply Z.div_le_upper_bound; lia). assert (0 <= y / 4) by (apply Z.div_pos; lia). lia. }
  split; [|lia].
  pose proof (yfun_mono (Z.to_nat k) (ystart y) S0 ltac:(lia)) as M1.
  pose proof (yfun_mono (Z.to_nat (ylen y - 1 - k)) (ystart y + k) ltac:(lia) ltac:(lia)) as M2.
  rewrite Z2Nat.id in M1, M2 by lia. replace (ystart y + k + (ylen y - 1 - k)) with (ystart y + ylen y - 1) in M2 by lia.
  apply (Z.div_le_mono _ _ 365 ltac:(lia)) in M1, M2. lia.
Qed.
Lemma year_exists : forall n : nat, forall doe, (n <= 400)%nat -> 0 <= doe ->
  (Z.of_nat n < 400 -> doe < ystart (Z.of_nat n)) -> doe < 146097 ->
  exists y, 0 <= y < 400 /\ ystart y <= doe < ystart y + ylen y.
Proof.
  induction n; intros doe Hn H0 H1 H2.
  - specialize (H1 ltac:(lia)). change (ystart (Z.of_nat 0)) with 0 in H1. lia.
  - destruct (Z.ltb_spec doe (ystart (Z.of_nat n))); [apply IHn; auto; lia|].
    exists (Z.of_nat n). split; [lia|]. split; [lia|].
    pose proof (all_up_ok _ _ _ years_ok (Z.of_nat n) ltac:(lia)) as C. cbv beta in C.
    rewrite !andb_true_iff, orb_true_iff, !Z.eqb_eq, Z.ltb_lt in C. destruct C as [_ C].
    destruct (Z.eq_dec (Z.of_nat n) 399) as [E|E].
    + rewrite E. change (ystart 399 + ylen 399) with 146097. lia.
    + destruct C as [C|C]; [|lia]. rewrite <- C.
      replace (Z.of_nat n + 1) with (Z.of_nat (S n)) by lia. apply H1. lia.
Qed.

(** Months and days inside such a year. *)
Definition moff (m : Z) : Z := (153 * (if m <=? 2 then m + 9 else m - 3) + 2) / 5.
Definition md (doy : Z) : Z * Z :=
  let mp := (5 * doy + 2) / 153 in
  (if mp <? 10 then mp + 3 else mp - 9, doy - (153 * mp + 2) / 5 + 1).
Definition mlen0 (b : bool) (m : Z) : Z :=
  if (m =? 4) || (m =? 6) || (m =? 9) || (m =? 11) then 30 else if m =? 2 then if b then 29 else 28 else 31.
Lemma month_days_ok : all_up 12 1 (fun m => all_up 31 1 (fun d =>
  negb (d <=? mlen0 true m) ||
  ((fst (md (moff m + d - 1)) =? m) && (snd (md (moff m + d - 1)) =? d) && (0 <=? moff m + d - 1) && (moff m + d - 1 <? 366) &&
   (negb (d <=? mlen0 false m) || (moff m + d - 1 <? 365))))) = true.
Proof. vm_compute. reflexivity. Qed.
Lemma days_month_ok : all_up 366 0 (fun k => let '(m, d) := md k in
  (1 <=? m) && (m <=? 12) && (1 <=? d) && (d <=? mlen0 true m) && (moff m + d - 1 =? k) && (negb (k <? 365) || (d <=? mlen0 false m))) = true.
Proof. vm_compute. reflexivity. Qed.

Lemma doe_of_eq y m d : doe_of y m d = ystart y + (moff m + d - 1).
Proof. unfold doe_of, ystart, moff. lia. Qed.
Lemma civil_doe_eq doe : civil_doe doe =
  (yfun doe / 365, fst (md (doe - ystart (yfun doe / 365))), snd (md (doe - ystart (yfun doe / 365)))).
Proof.
  unfold civil_doe, md. cbv zeta. cbn [fst snd]. fold (yfun doe). unfold ystart.
  rewrite (Z.mul_comm 365 (yfun doe / 365)). reflexivity.
Qed.
Lemma mlen_mlen0 y m : mlen y m = mlen0 (isLeap y) m.
Proof. reflexivity. Qed.

Lemma doe_of_ok yoe m d : 0 <= yoe < 400 -> 1 <= m <= 12 -> 1 <= d <= mlen (yoe + bump m) m ->
  civil_doe (doe_of yoe m d) = (yoe, m, d) /\ 0 <= doe_of yoe m d < 146097.
Proof.
  intros Hy Hm Hd.
  pose proof (mlen_le (yoe + bump m) m).
  pose proof (all_up_ok _ _ _ month_days_ok m ltac:(lia)) as C2. cbv beta in C2.
  pose proof (all_up_ok _ _ _ C2 d ltac:(lia)) as C3. cbv beta in C3. clear C2.
  assert (M1 : mlen (yoe + bump m) m <= mlen0 true m).
  { rewrite mlen_mlen0. unfold mlen0. destruct ((m =? 4) || (m =? 6) || (m =? 9) || (m =? 11)), (m =? 2), (isLeap (yoe + bump m)); lia. }
  apply orb_true_iff in C3. destruct C3 as [C3|C3]; [apply negb_true_iff, Z.leb_gt in C3; lia|].
  rewrite !andb_true_iff, orb_true_iff, negb_true_iff, !Z.eqb_eq, Z.leb_le, Z.leb_gt, !Z.ltb_lt in C3.
  destruct C3 as [[[[C3 C4] C5] C6] C7].
  assert (K : 0 <= moff m + d - 1 < ylen yoe).
  { split; [lia|]. unfold ylen. destruct (isLeap (yoe + 1)) eqn:E; [lia|]. destruct C7 as [C7|C7]; [|lia].
    rewrite mlen_mlen0 in Hd. unfold bump in Hd. destruct (Z.leb_spec m 2).
    - rewrite E in Hd. lia.
    - unfold mlen0 in *. destruct ((m =? 4) || (m =? 6) || (m =? 9) || (m =? 11)); [lia|]. destruct (Z.eqb_spec m 2); lia. }
  rewrite civil_doe_eq, doe_of_eq. destruct (year_ok yoe _ Hy K) as [E B]. rewrite E.
  replace (ystart yoe + (moff m + d - 1) - ystart yoe) with (moff m + d - 1) by lia. rewrite C3, C4. auto.
Qed.
Lemma civil_doe_ok doe : 0 <= doe < 146097 ->
  let '(yoe, m, d) := civil_doe doe in
  0 <= yoe < 400 /\ 1 <= m <= 12 /\ 1 <= d <= mlen (yoe + bump m) m /\ doe_of yoe m d = doe.
Proof.
  intros H. destruct (year_exists 400 doe) as (y & Hy & Hs); [lia|lia|intros; lia|lia|].
  rewrite civil_doe_eq. destruct (year_ok y (doe - ystart y) Hy ltac:(lia)) as [E B].
  replace (ystart y + (doe - ystart y)) with doe in E by lia. rewrite E.
  assert (L : ylen y <= 366) by (unfold ylen; destruct (isLeap (y + 1)); lia).
  pose proof (all_up_ok _ _ _ days_month_ok (doe - ystart y) ltac:(lia)) as C. cbv beta in C.
  rewrite doe_of_eq. destruct (md (doe - ystart y)) as [m d]. cbn [fst snd].
  rewrite !andb_true_iff, orb_true_iff, negb_true_iff, !Z.eqb_eq, !Z.leb_le, Z.ltb_ge in C.
  destruct C as [[[[[C1 C2] C3] C4] C5] C6].
  split; [lia|]. split; [lia|]. split; [|lia]. split; [lia|]. rewrite mlen_mlen0. unfold bump.
  destruct (Z.leb_spec m 2).
  - unfold ylen in Hs. destruct (isLeap (y + 1)); [lia|]. destruct C6; lia.
  - unfold mlen0 in *. destruct ((m =? 4) || (m =? 6) || (m =? 9) || (m =? 11)); [lia|]. destruct (Z.eqb_spec m 2); lia.
Qed.
