(** Theorems about Vector (C01, C02, C03, C65). *)
From Coq Require Import List ZArith Lia Bool.
From Verif Require Import Base VectorModel VectorSpec VectorProofs.
Import ListNotations.
Open Scope Z_scope.

(** A vector obtained from the empty one by a history of in-range operations
    (never exceeding the length limit), together with the sequence it should hold. *)
Definition reachable {A} (v : vec A) (l : list A) : Prop :=
  exists den os obs, (forall s, In s (sources os) -> holds s (den s)) /\
    seq_run den 1999985 os [] = Some (l, obs) /\ vrun os v_empty = Ret v obs.

Lemma reachable_rep {A} (v : vec A) l : reachable v l -> rep A v l.
Proof.
  intros (den & os & obs & Hs & Hr & Hv).
  destruct (vrun_ok A den os v_empty [] l obs (rep_empty A) Hs Hr) as (v' & E & R).
  rewrite Hv in E. now inversion E; subst.
Qed.

(** C01. Every history the sequence semantics accepts runs without error on the
    vector, makes the same observations, and ends in a vector holding the same sequence. *)
Theorem C01_vector_refines_sequence :
  forall (A : Type) den (os : list (vop A)) l obs,
    (forall s, In s (sources os) -> holds s (den s)) ->
    seq_run den 1999985 os [] = Some (l, obs) ->
    exists v, vrun os v_empty = Ret v obs /\ holds v l.
Proof.
  intros A den os l obs Hs Hr.
  destruct (vrun_ok A den os v_empty [] l obs (rep_empty A) Hs Hr) as (v & E & R).
  exists v. split; auto. now apply rep_holds.
Qed.
Print Assumptions C01_vector_refines_sequence.

Example C01_case :
  let os := map VPush [1;2;3;4;5;6;7;8;9;10;11;12;13;14;15;16;17] ++
            [VErase 0; VInsert 2 100; VGet 2; VSet 0 7; VPop; VLength; VInsertVec 1 (mkvec (Some [Some 8; Some 9]) 2 2)] in
  seq_run (fun _ => [8;9]) 1999985 os [] =
    Some ([7;8;9;3;100;4;5;6;7;8;9;10;11;12;13;14;15;16],
          repeat ONone 19 ++ [OVal (Some 100); ONone; ONone; OLen 16; ONone])
  /\ holds (mkvec (Some [Some 8; Some 9]) 2 2) [8;9].
Proof.
  split; [vm_compute; reflexivity|]. split; [reflexivity|].
  intros i Hi. simpl in Hi.
  assert (i = 0 \/ i = 1) as [->| ->] by lia; eexists; split; reflexivity.
Qed.

(** C02, guarded: each reachable vector has a capacity [c], at least its length, and an
    index is refused (error, vector unchanged) when it is negative or not below [c]. *)
Theorem C02_index_outside_capacity_rejected_partial :
  forall (A : Type) (v : vec A) l, reachable v l ->
    exists c, length_of v <= c /\
      forall i x, i < 0 \/ c <= i ->
        get v i = Exc v /\ set v i x = Exc v /\ erase v i = Exc v.
Proof.
  intros A v l H. apply reachable_rep in H. exists (size v). split.
  - destruct H as (Hs & Hc & Hle & _). unfold length_of. lia.
  - intros i x Hi. now apply (outside_rejected A v l).
Qed.
Print Assumptions C02_index_outside_capacity_rejected_partial.

(** C02 as stated is false: after pushing 7, 8 and popping, index 1 is still read
    (the popped element comes back), still writable, and erasing it removes the only
    remaining element although that element is at index 0. *)
Theorem C02_out_of_range_rejected_refuted :
  exists (v : vec Z), reachable v [7] /\ length_of v = 1 /\
    get v 1 = Ret v (Some 8) /\
    (exists w, set v 1 9 = Ret w tt) /\
    (exists w, erase v 1 = Ret w tt /\ length_of w = 0).
Proof.
  exists (mkvec (Some (Some 7 :: Some 8 :: repeat None 14)) 1 16).
  split.
  { exists (fun _ => []), [VPush 7; VPush 8; VPop], [ONone; ONone; ONone].
    split; [simpl; tauto|]. split; reflexivity. }
  repeat split; auto.
  - eexists. reflexivity.
  - eexists. split; reflexivity.
Qed.
Print Assumptions C02_out_of_range_rejected_refuted.

(** A never-written cell can be read as well: it is not even a stale value. *)
Theorem C02_uninitialised_read_refuted :
  exists (v : vec Z), reachable v [7] /\ get v 1 = Ret v None.
Proof.
  exists (mkvec (Some (Some 7 :: repeat None 15)) 1 16). split; [|reflexivity].
  exists (fun _ => []), [VPush 7], [ONone]. split; [simpl; tauto|]. split; reflexivity.
Qed.
Print Assumptions C02_uninitialised_read_refuted.

(** Erasing in the gap of an empty vector even makes the length negative. *)
Theorem C02_negative_length_refuted :
  exists (v w : vec Z), reachable v [] /\ erase v 0 = Ret w tt /\ length_of w = -1.
Proof.
  exists (mkvec (Some (Some 7 :: repeat None 15)) 0 16). eexists. split; [|split; reflexivity].
  exists (fun _ => []), [VPush 7; VPop], [ONone; ONone]. split; [simpl; tauto|]. split; reflexivity.
Qed.
Print Assumptions C02_negative_length_refuted.

(** C03, guarded: assignment from another, non-empty vector. *)
Theorem C03_assignment_copies_partial :
  forall (A : Type) (v s : vec A) l, reachable s l -> l <> [] ->
    exists w, assign v s = Ret w tt /\ holds w l.
Proof.
  intros A v s l H Hne. apply reachable_rep in H.
  destruct (assign_ok A v s l H) as (w & E & R).
  - destruct H as (Hs & Hc & Hle & Hn). unfold buf in *. destruct (items s); [congruence|].
    destruct l; [congruence|]. simpl in Hle. lia.
  - exists w. split; auto. now apply rep_holds.
Qed.
Print Assumptions C03_assignment_copies_partial.

Example C03_case : exists s : vec Z, reachable s [7;8].
Proof.
  eexists. exists (fun _ => []), [VPush 7; VPush 8], [ONone; ONone]. split; [simpl; tauto|]. split; reflexivity.
Qed.

(** C03 as stated is false: assigning an empty vector leaves the target as it was, ... *)
Theorem C03_assign_empty_refuted :
  forall (A : Type) (v : vec A), reachable v_empty ([] : list A) /\ assign v v_empty = Ret v tt.
Proof.
  intros A v. split; [|reflexivity].
  exists (fun _ => []), [], []. split; [simpl; tauto|]. split; reflexivity.
Qed.
Print Assumptions C03_assign_empty_refuted.

(** ... and self-assignment of any vector with storage erases its content. *)
Theorem C03_assign_self_refuted :
  forall (A : Type) (v : vec A) l, reachable v l -> l <> [] ->
    exists w, assign_self v = Ret w tt /\ holds w [].
Proof.
  intros A v l H Hne. apply reachable_rep in H.
  destruct H as (Hs & Hc & Hle & Hn). unfold assign_self, buf in *.
  destruct (items v) as [m|].
  - eexists. split; [reflexivity|]. split; [reflexivity|]. simpl. lia.
  - destruct l; [congruence|]. simpl in Hle. lia.
Qed.
Print Assumptions C03_assign_self_refuted.

(** C65. A bulk insertion refused for capacity reasons should leave the vector usable.
    It does not: for every vector and every source that is too long, the recorded
    capacity is already raised when the error is thrown, so a later read at an index
    that used to be refused is undefined behaviour. *)
Theorem C65_failed_bulk_insert_corrupts_refuted :
  forall (A : Type) (v s : vec A) l ls,
    reachable v l -> holds s ls ->
    2000000 <= Z.of_nat (length l) + Z.of_nat (length ls) ->
    size v <= Z.of_nat (length l) + Z.of_nat (length ls) - 1 ->
    exists w i, concat v s = Exc w /\ get v i = Exc v /\ get w i = Undef.
Proof.
  intros A v s l ls Hr Hh Hbig Hsz. apply reachable_rep in Hr.
  pose proof Hr as (Hs & Hc & Hle & Hn). pose proof (proj1 Hh) as Hcs. unfold length_of in Hcs.
  pose proof (holds_len A s ls Hh).
  exists (mkvec (items v) (count v) (count s + count v)), (size v).
  assert (G : forall w : vec A, buf w = buf v -> size v < size w -> get w (size v) = Undef).
  { intros w Hb Hw. unfold get, out_of_size. rewrite Hb.
    destruct (Z.ltb_spec (size v) 0); [lia|]. destruct (Z.leb_spec (size w) (size v)); [lia|]. simpl.
    rewrite rd_nth by lia. rewrite (proj2 (nth_error_None _ _)) by lia. reflexivity. }
  repeat split.
  - unfold concat, insert_vec.
    destruct (Z.eqb_spec (count s) 0); [lia|].
    destruct (Z.eqb_spec (count s) (-1)); [lia|].
    destruct (Z.ltb_spec (count s) (count s)); [lia|].
    destruct (Z.ltb_spec (count v) (count v)); [lia|]. cbv zeta.
    destruct (Z.leb_spec (size v) (count s + count v)); [|lia]. simpl.
    destruct (Z.leb_spec MAX_ELEMENTS (count s + count v)); [reflexivity|].
    unfold MAX_ELEMENTS in *. lia.
  - unfold get, out_of_size. destruct (Z.leb_spec (size v) (size v)); [|lia].
    now rewrite orb_true_r.
  - apply G; [reflexivity|]. simpl. lia.
Qed.
Print Assumptions C65_failed_bulk_insert_corrupts_refuted.

Example C65_case :
  let ls := repeat 0 (Z.to_nat 2000000) in
  holds (mkvec (Some (map Some ls)) 2000000 2000000) ls /\
  2000000 <= Z.of_nat (length ls).
Proof.
  intros ls. assert (Hl : Z.of_nat (length ls) = 2000000).
  { unfold ls. rewrite repeat_length. lia. }
  clearbody ls. split; [|lia]. split; [simpl; lia|]. intros i Hi.
  destruct (nth_error ls (Z.to_nat i)) as [x|] eqn:E; [|apply nth_error_None in E; lia].
  exists x. split; auto. unfold get, out_of_size, buf. simpl size. simpl items.
  destruct (Z.ltb_spec i 0); [lia|]. destruct (Z.leb_spec 2000000 i); [lia|]. cbn [orb].
  rewrite rd_nth by lia. rewrite nth_error_map', E. reflexivity.
Qed.

(** C80. Inserting the first [n] elements of a source: asking for more elements than it has is
    refused and changes nothing. *)
Theorem C80_insert_too_many_rejected :
  forall (A : Type) (v s : vec A) ls i n, holds s ls -> ls <> [] -> Z.of_nat (length ls) < n ->
    insert_vec v i s n = Exc v.
Proof.
  intros A v s ls i n (Hcs & _) Hne Hn. unfold length_of in Hcs. unfold insert_vec. rewrite Hcs.
  destruct (Z.eqb_spec (Z.of_nat (length ls)) 0); [destruct ls; [congruence|simpl in *; lia]|].
  destruct (Z.eqb_spec n (-1)); [lia|]. cbv zeta.
  destruct (Z.ltb_spec (Z.of_nat (length ls)) n); [reflexivity|lia].
Qed.
Print Assumptions C80_insert_too_many_rejected.

(** The elements asked for land at the position, between the two halves of the old content. *)
Theorem C80_insert_prefix_partial :
  forall (A : Type) (v s : vec A) l ls i n, reachable v l -> holds s ls -> ls <> [] ->
    0 <= i <= Z.of_nat (length l) -> 0 <= n <= Z.of_nat (length ls) ->
    Z.of_nat (length l) + n < 2000000 ->
    exists w, insert_vec v i s n = Ret w tt /\
      length_of w = Z.of_nat (length l) + Z.of_nat (length ls) /\
      forall j, 0 <= j < Z.of_nat (length l) + n ->
        exists x, nth_error (firstn (Z.to_nat i) l ++ firstn (Z.to_nat n) ls ++ skipn (Z.to_nat i) l) (Z.to_nat j) = Some x /\
          get w j = Ret w (Some x).
Proof.
  intros A v s l ls i n Hr Hh Hne Hi Hn Hlim. apply reachable_rep in Hr.
  pose proof Hr as (Hs & Hc & Hle & Hv).
  pose proof (holds_len A _ _ Hh) as HL. pose proof (holds_cells A _ _ Hh) as HC.
  pose proof (proj1 Hh) as Hcs. unfold length_of in Hcs.
  assert (0 < Z.of_nat (length ls)) by (destruct ls; [congruence|simpl; lia]).
  unfold insert_vec. rewrite Hcs.
  destruct (Z.eqb_spec (Z.of_nat (length ls)) 0) as [Ez|Ez]; [lia|].
  destruct (Z.eqb_spec n (-1)); [lia|]. cbv zeta.
  destruct (Z.ltb_spec (Z.of_nat (length ls)) n); [lia|].
  destruct (Z.ltb_spec (count v) i); [lia|].
  set (g := size v <=? n + count v).
  set (v1 := if g then mkvec (items v) (count v) (n + count v) else v).
  assert (Hb : buf v1 = buf v) by (unfold v1; destruct g; reflexivity).
  assert (Hc1 : count v1 = count v) by (unfold v1; destruct g; reflexivity).
  assert (Hs1 : n + count v <= size v1).
  { unfold v1, g. destruct (Z.leb_spec (size v) (n + count v)); simpl; lia. }
  assert (Hg : g && (MAX_ELEMENTS <=? size v1) = false).
  { unfold v1, g. destruct (Z.leb_spec (size v) (n + count v)); simpl; auto.
    apply Z.leb_gt. unfold MAX_ELEMENTS. lia. }
  rewrite Hg, Hb, Hc1.
  pose proof (fresh_length A (size v1)) as FL.
  destruct (copy_loop_ok A i (buf v) 0 (fresh (size v1)) 0) as (m1 & E1 & L1 & N1); try lia.
  rewrite E1.
  destruct (copy_loop_ok A n (buf s) 0 m1 i) as (m2 & E2 & L2 & N2); try lia.
  rewrite E2.
  destruct (copy_loop_ok A (count v - i) (buf v) i m2 (i + n)) as (m3 & E3 & L3 & N3); try lia.
  rewrite E3. eexists. split; [reflexivity|]. unfold length_of. simpl count. split; [lia|].
  intros j Hj.
  unfold get, out_of_size. rewrite buf_mk. simpl size.
  destruct (Z.ltb_spec j 0); [lia|]. destruct (Z.leb_spec (size v1) j); [lia|]. cbn [orb].
  rewrite rd_nth by lia.
  rewrite N3, N2, N1. rewrite !nth_error_app, !nth_error_firstn, nth_error_skipn, !firstn_length.
  rewrite !Nat.min_l by lia. rewrite !Z2Nat.id by lia.
  assert (P : forall (a : list A) k, (k < length a)%nat -> exists x, nth_error a k = Some x).
  { intros a k Hk. destruct (nth_error a k) eqn:E; eauto. apply nth_error_None in E. lia. }
  destruct (Nat.ltb_spec (Z.to_nat j) (Z.to_nat i)).
  - destruct (Z.leb_spec (i + n) j); [lia|]. cbn [andb orb].
    destruct (Z.leb_spec i j); [lia|]. cbn [andb orb].
    destruct (Z.leb_spec 0 j); [|lia].
    destruct (Z.ltb_spec j (0 + i)); [|lia]. cbn [andb orb].
    destruct (P l (Z.to_nat j)) as (x & Hx); [lia|]. exists x. split; [exact Hx|].
    replace (Z.to_nat (j - 0 + 0)) with (Z.to_nat j) by lia.
    rewrite Hv by lia. now rewrite Hx.
  - destruct (Nat.ltb_spec (Z.to_nat j - Z.to_nat i) (Z.to_nat n)).
    + destruct (Z.leb_spec (i + n) j); [lia|]. cbn [andb orb].
      destruct (Z.leb_spec i j); [|lia].
      destruct (Z.ltb_spec j (i + n)); [|lia]. cbn [andb orb].
      destruct (P ls (Z.to_nat j - Z.to_nat i)%nat) as (x & Hx); [lia|]. exists x. split; [exact Hx|].
      replace (Z.to_nat (j - i + 0)) with (Z.to_nat j - Z.to_nat i)%nat by lia.
      rewrite HC by lia. now rewrite Hx.
    + destruct (Z.leb_spec (i + n) j); [|lia].
      destruct (Z.ltb_spec j (i + n + (count v - i))); [|lia]. cbn [andb orb].
      destruct (P l (Z.to_nat i + (Z.to_nat j - Z.to_nat i - Z.to_nat n))%nat) as (x & Hx); [lia|]. exists x. split; [exact Hx|].
      replace (Z.to_nat (j - (i + n) + i)) with (Z.to_nat i + (Z.to_nat j - Z.to_nat i - Z.to_nat n))%nat by lia.
      rewrite Hv by lia. now rewrite Hx.
Qed.
Print Assumptions C80_insert_prefix_partial.

(** The length afterwards is wrong whenever fewer elements than the source has are asked for:
    it counts the whole source, so the vector does not hold the sequence. *)
Theorem C80_insert_prefix_length_refuted :
  forall (A : Type) (v s : vec A) l ls i n, reachable v l -> holds s ls ->
    0 <= i <= Z.of_nat (length l) -> 0 <= n < Z.of_nat (length ls) ->
    Z.of_nat (length l) + n < 2000000 ->
    exists w, insert_vec v i s n = Ret w tt /\
      ~ holds w (firstn (Z.to_nat i) l ++ firstn (Z.to_nat n) ls ++ skipn (Z.to_nat i) l).
Proof.
  intros A v s l ls i n Hr Hh Hi Hn Hlim.
  destruct (C80_insert_prefix_partial A v s l ls i n Hr Hh) as (w & E & L & _); try lia.
  { destruct ls; simpl in *; [lia|congruence]. }
  exists w. split; [exact E|]. intros (H & _). rewrite L, !app_length, !firstn_length, skipn_length in H. lia.
Qed.
Print Assumptions C80_insert_prefix_length_refuted.

Example C80_case :
  let s := mkvec (Some [Some 8; Some 9]) 2 2 in
  holds s [8; 9] /\ (exists v : vec Z, reachable v [7]) /\
  insert_vec v_empty 0 s 3 = Exc v_empty.
Proof.
  split; [split; [reflexivity|]; intros i Hi; simpl in Hi;
    assert (i = 0 \/ i = 1) as [->| ->] by lia; eexists; split; reflexivity|].
  split; [|reflexivity].
  eexists. exists (fun _ => []), [VPush 7], [ONone]. split; [simpl; tauto|]. split; reflexivity.
Qed.
