(** Theorems about MapString and MapInt (C05-C08). *)
From Coq Require Import List ZArith Bool Lia.
From Verif Require Import Base ListModel ListSpec ListProofs MapModel MapSpec MapProofs.
Import ListNotations.
Open Scope Z_scope.

(** Equality of byte strings. *)
Fixpoint streqb (a b : list Z) : bool :=
  match a, b with
  | [], [] => true
  | x :: a', y :: b' => (x =? y) && streqb a' b'
  | _, _ => false
  end.

Lemma streqb_eq a b : streqb a b = true <-> a = b.
Proof.
  revert b; induction a as [|x a IH]; intros [|y b]; simpl; try (split; intros; congruence).
  rewrite andb_true_iff, Z.eqb_eq, IH. split; [intros [-> ->]; auto|intros H; inversion H; auto].
Qed.

Lemma strcmp_eq a b : strcmp a b = Eq <-> a = b.
Proof.
  revert b; induction a as [|x a IH]; intros [|y b]; simpl; try (split; intros; congruence).
  destruct (Z.compare_spec x y).
  - subst. rewrite IH. split; [now intros ->|intros H; now inversion H].
  - split; [discriminate|]. intros E; inversion E; lia.
  - split; [discriminate|]. intros E; inversion E; lia.
Qed.

Lemma strcmp_opp a b : strcmp b a = CompOpp (strcmp a b).
Proof.
  revert b; induction a as [|x a IH]; intros [|y b]; simpl; auto.
  rewrite (Z.compare_antisym x y). destruct (x ?= y); simpl; auto.
Qed.

Lemma strcmp_trans a b c : strcmp a b = Lt -> strcmp b c = Lt -> strcmp a c = Lt.
Proof.
  revert b c; induction a as [|x a IH]; intros [|y b] [|z c]; simpl; try congruence.
  destruct (Z.compare_spec x y), (Z.compare_spec y z); intros H1 H2; try congruence;
    destruct (Z.compare_spec x z); try lia; auto. subst. eauto.
Qed.

Lemma zcmp_opp a b : Z.compare b a = CompOpp (Z.compare a b).
Proof. rewrite Z.compare_antisym. now destruct (a ?= b). Qed.
Lemma zcmp_trans a b c : Z.compare a b = Lt -> Z.compare b c = Lt -> Z.compare a c = Lt.
Proof. rewrite !Z.compare_lt_iff. lia. Qed.

(** Largest number of entries of a MapString. *)
Definition STR_CAP : Z := 999984.
(** Largest number of entries of a MapInt. *)
Definition INT_CAP : Z := 65535.

Lemma str_cap_ok : 0 <= STR_CAP <= MAX_ITEMS - 16. Proof. unfold STR_CAP, MAX_ITEMS; lia. Qed.
Lemma int_cap_ok : 0 <= INT_CAP <= MAX_ITEMS - 10. Proof. unfold INT_CAP, MAX_ITEMS; lia. Qed.
Lemma slot16 : 0 < 16 /\ 16 < MAX_ITEMS. Proof. unfold MAX_ITEMS; lia. Qed.
Lemma slot10 : 0 < 10 /\ 10 < MAX_ITEMS. Proof. unfold MAX_ITEMS; lia. Qed.
Lemma wrap16_ok n : 0 <= n <= INT_CAP -> wrap16 n = n.
Proof. unfold INT_CAP, wrap16. intros. apply Z.mod_small. lia. Qed.
Lemma zcmp_eq a b : Z.compare a b = Eq <-> a = b.
Proof. apply Z.compare_eq_iff. Qed.

Definition str_rep V := run_rep (list Z) V strcmp streqb 16 (fun n => n) STR_CAP strcmp_eq strcmp_opp
  strcmp_trans streqb_eq (proj1 slot16) str_cap_ok (proj2 slot16) (fun n _ => eq_refl).
Definition int_rep V := run_rep Z V Z.compare Z.eqb 10 wrap16 INT_CAP zcmp_eq zcmp_opp
  zcmp_trans Z.eqb_eq (proj1 slot10) int_cap_ok (proj2 slot10) wrap16_ok.

(** C05 and C06 for MapString. For every history of set / get / exist / erase / count /
    iterate / clear in which the map never holds more than 999984 entries, every answer
    is the one of the insertion-ordered association list, and iteration lists exactly its
    entries, in order of first insertion since last removal. *)
Theorem C05_mapstring_is_finite_map :
  forall (V : Type) (os : list (mop (list Z) V)) l xs,
    spec_run streqb STR_CAP os [] = Some (l, xs) ->
    exists m, str_run os m_empty = Some (m, xs).
Proof.
  intros V os l xs H.
  destruct (str_rep V os l xs H) as (m & Hm & _). eauto.
Qed.
Print Assumptions C05_mapstring_is_finite_map.

Example C05_case :
  spec_run streqb STR_CAP
    [MSet [98] 1; MSet [97] 2; MSet [98] 3; MGet [98]; MGet [99]; MErase [99]; MSet [] 5;
     MIterate; MErase [98]; MSet [98] 7; MExist [97]; MIterate; MCount] []
  = Some ([([97], 2); ([], 5); ([98], 7)],
          [ODone; ODone; ODone; OGot (Some 3); OGot None; OFail; ODone;
           OItems [([98], 3); ([97], 2); ([], 5)]; ODone; ODone; OBool true;
           OItems [([97], 2); ([], 5); ([98], 7)]; OCount 3]).
Proof. reflexivity. Qed.

(** C06. After any such history, one more iteration yields the surviving pairs in the
    order in which their keys were first inserted, each key exactly once. *)
Theorem C06_iteration_insertion_order :
  forall (V : Type) (os : list (mop (list Z) V)) l xs,
    spec_run streqb STR_CAP os [] = Some (l, xs) ->
    exists m, str_run os m_empty = Some (m, xs) /\ m_iterate m = Ret m l /\
      NoDup (List.map fst l) /\ forall k, m_get strcmp m k = Ret m (lookup streqb k l).
Proof.
  intros V os l xs H.
  destruct (str_rep V os l xs H) as (m & Hm & R).
  exists m. split; auto. split; [|split].
  - exact (iterate_ok _ _ _ _ _ str_cap_ok m l R).
  - destruct R as (E & T & R & ->). pose proof (r_keys _ _ _ _ _ _ _ R) as Hk.
    rewrite map_map. exact Hk.
  - intros k. exact (get_ok _ _ _ _ _ _ strcmp_eq strcmp_opp strcmp_trans streqb_eq (proj1 slot16) str_cap_ok (proj2 slot16) m l k R).
Qed.
Print Assumptions C06_iteration_insertion_order.

(** C08. The same for MapInt, as long as it never holds more than 65535 entries. *)
Theorem C08_mapint_is_finite_map :
  forall (V : Type) (os : list (mop Z V)) l xs,
    spec_run Z.eqb INT_CAP os [] = Some (l, xs) ->
    exists m, int_run os m_empty = Some (m, xs) /\ m_iterate m = Ret m l.
Proof.
  intros V os l xs H.
  destruct (int_rep V os l xs H) as (m & Hm & R).
  exists m. split; auto. exact (iterate_ok _ _ _ _ _ int_cap_ok m l R).
Qed.
Print Assumptions C08_mapint_is_finite_map.

Example C08_case :
  spec_run Z.eqb INT_CAP [MSet 5 1; MSet (-3) 2; MSet 5 9; MErase 4; MIterate; MErase 5; MGet 5; MCount] []
  = Some ([(-3, 2)], [ODone; ODone; ODone; OFail; OItems [(5, 9); (-3, 2)]; ODone; OGot None; OCount 1]).
Proof. reflexivity. Qed.

(** C08, the bound is tight: with 65535 entries, setting one more key makes the count 0
    and every key absent. *)
Theorem C08_65536th_entry_loses_all_refuted :
  forall (V : Type) (os : list (mop Z V)) l xs key v,
    spec_run Z.eqb INT_CAP os [] = Some (l, xs) -> Z.of_nat (length l) = INT_CAP ->
    present Z.eqb key l = false ->
    exists m m', int_run os m_empty = Some (m, xs) /\ int_set m key v = Ret m' tt /\
      m_count m' = 0 /\ forall k, m_get Z.compare m' k = Ret m' None.
Proof.
  intros V os l xs key v H Hl Hp.
  destruct (int_rep V os l xs H) as (m & Hm & R).
  destruct (set_wrap_loses Z V Z.compare Z.eqb 10 wrap16 INT_CAP zcmp_eq zcmp_opp zcmp_trans Z.eqb_eq
             (proj1 slot10) int_cap_ok (proj2 slot10) m l key v R Hp)
    as (m' & H1 & H2 & H3).
  { rewrite Hl. reflexivity. }
  { rewrite Hl. reflexivity. }
  exists m, m'. auto.
Qed.
Print Assumptions C08_65536th_entry_loses_all_refuted.

(** ... and such a history exists. *)
Theorem C08_65536th_entry_reachable :
  exists (os : list (mop Z Z)) l xs, spec_run Z.eqb INT_CAP os [] = Some (l, xs)
    /\ Z.of_nat (length l) = INT_CAP /\ exists key, present Z.eqb key l = false.
Proof.
  destruct (fill_ok Z Z Z.eqb INT_CAP Z.eqb_eq (fun n => Z.of_nat n) 0 Nat2Z.inj (Z.to_nat INT_CAP))
    as (l & xs & H1 & H2 & H3); [rewrite Z2Nat.id; [lia|apply int_cap_ok]|].
  exists (List.map (fun i => MSet (Z.of_nat i) 0) (List.seq 0 (Z.to_nat INT_CAP))), l, xs.
  split; [exact H1|]. split; [rewrite H2; apply Z2Nat.id, int_cap_ok|].
  exists (Z.of_nat (Z.to_nat INT_CAP)). rewrite H3. apply Nat.ltb_irrefl.
Qed.

(** C07. A MapString that is full (999984 entries) refuses a new key with an exception,
    but is changed: the iteration that listed all entries before the call now runs into
    a node whose key was never written. *)
Theorem C07_failed_insert_unchanged_refuted :
  forall (V : Type) (os : list (mop (list Z) V)) l xs key v,
    spec_run streqb STR_CAP os [] = Some (l, xs) -> Z.of_nat (length l) = STR_CAP ->
    present streqb key l = false ->
    exists m m', str_run os m_empty = Some (m, xs) /\ m_iterate m = Ret m l /\
      str_set m key v = Exc m' /\ m_iterate m' = Undef /\ m_count m' = m_count m /\
      exists p, last (ring_of m') = Some p /\ nkey m' p = None.
Proof.
  intros V os l xs key v H Hl Hp.
  destruct (str_rep V os l xs H) as (m & Hm & R).
  assert (Hsz : msize m = Z.of_nat (length l)).
  { apply (full_size _ _ _ _ (proj1 slot16) m l R); [rewrite Hl|]; reflexivity. }
  destruct (set_full_throws (list Z) V strcmp streqb 16 (fun n => n) STR_CAP strcmp_eq strcmp_opp
             strcmp_trans streqb_eq (proj1 slot16) str_cap_ok (proj2 slot16) m l key v R Hp)
    as (m' & H1 & H2 & H3 & H4).
  { now rewrite Hsz. }
  { rewrite Hsz, Hl. discriminate. }
  { rewrite Hsz, Hl. reflexivity. }
  exists m, m'. split; auto. split; [exact (iterate_ok _ _ _ _ _ str_cap_ok m l R)|]. auto.
Qed.
Print Assumptions C07_failed_insert_unchanged_refuted.

(** The hypotheses of the previous theorem are met by the history that sets the keys
    "", "A", "AA", ... *)
Theorem C07_full_map_reachable :
  exists (os : list (mop (list Z) Z)) l xs, spec_run streqb STR_CAP os [] = Some (l, xs)
    /\ Z.of_nat (length l) = STR_CAP /\ exists key, present streqb key l = false.
Proof.
  assert (Hinj : forall i j, repeat 65 i = repeat 65 j -> i = j).
  { intros i j E. apply (f_equal (@length Z)) in E. now rewrite !repeat_length in E. }
  destruct (fill_ok (list Z) Z streqb STR_CAP streqb_eq (fun n => repeat 65 n) 0 Hinj (Z.to_nat STR_CAP))
    as (l & xs & H1 & H2 & H3); [rewrite Z2Nat.id; [lia|apply str_cap_ok]|].
  exists (List.map (fun i => MSet (repeat 65 i) 0) (List.seq 0 (Z.to_nat STR_CAP))), l, xs.
  split; [exact H1|]. split; [rewrite H2; apply Z2Nat.id, str_cap_ok|].
  exists (repeat 65 (Z.to_nat STR_CAP)). rewrite H3. apply Nat.ltb_irrefl.
Qed.
Print Assumptions C07_full_map_reachable.
