From Coq Require Import List ZArith Lia Bool.
From Verif Require Import Base VectorModel VectorSpec.
Import ListNotations.
Open Scope Z_scope.

Section Proofs.
Variable A : Type.

Lemma buf_mk (m : list (option A)) c z : buf (mkvec (Some m) c z) = m.
Proof. reflexivity. Qed.

Implicit Types (v s : vec A) (l : list A).

Definition rep v l : Prop :=
  size v = Z.of_nat (length (buf v)) /\ count v = Z.of_nat (length l) /\
  (length l <= length (buf v))%nat /\
  forall i, (i < length l)%nat -> nth_error (buf v) i = Some (nth_error l i).

Lemma rep_empty : rep v_empty [].
Proof. repeat split; simpl; auto; intros; lia. Qed.

Lemma fresh_length n : 0 <= n -> Z.of_nat (length (@fresh A n)) = n.
Proof. intros H. unfold fresh. rewrite repeat_length. lia. Qed.

Lemma copy_loop_ok n (src : list (option A)) so dst d :
  0 <= n -> 0 <= so -> 0 <= d ->
  n + so <= Z.of_nat (length src) -> n + d <= Z.of_nat (length dst) ->
  exists r, copy_loop n src so dst d = Some r /\ length r = length dst /\
    forall j, nth_error r j =
      if ((d <=? Z.of_nat j) && (Z.of_nat j <? d + n))
      then nth_error src (Z.to_nat (Z.of_nat j - d + so)) else nth_error dst j.
Proof.
  intros. unfold copy_loop.
  destruct (for_up_copy src (Z.to_nat n) 0 so d dst) as (r & E & L & N); try lia.
  exists r. repeat split; auto. intros j. rewrite N.
  replace (0 + d) with d by lia. rewrite Z2Nat.id by lia. reflexivity.
Qed.

(** Copying nothing touches nothing. *)
Lemma copy_loop_zero (src : list (option A)) so dst d :
  copy_loop 0 src so dst d = Some dst.
Proof. reflexivity. Qed.

Lemma rep_holds v l : rep v l -> holds v l.
Proof.
  intros (Hs & Hc & Hle & Hn). split; [exact Hc|].
  intros i Hi.
  assert (Hlt : (Z.to_nat i < length l)%nat) by lia.
  specialize (Hn _ Hlt).
  destruct (nth_error l (Z.to_nat i)) as [x|] eqn:E;
    [|apply nth_error_None in E; lia].
  exists x. split; auto. unfold get, out_of_size.
  destruct (Z.ltb_spec i 0); [lia|]. destruct (Z.leb_spec (size v) i); [lia|]. cbn [andb orb].
  rewrite rd_nth by lia. now rewrite Hn.
Qed.

Lemma holds_cells s l : holds s l -> forall i, (i < length l)%nat ->
  nth_error (buf s) i = Some (nth_error l i).
Proof.
  intros [Hc H] i Hi. destruct (H (Z.of_nat i)) as (x & Hx & Hg); [lia|].
  rewrite Nat2Z.id in Hx. rewrite Hx. unfold get in Hg.
  destruct (out_of_size s (Z.of_nat i)); [discriminate|].
  rewrite rd_nth in Hg by lia. rewrite Nat2Z.id in Hg.
  destruct (nth_error (buf s) i); [|discriminate]. now inversion Hg.
Qed.

Lemma holds_len s l : holds s l -> (length l <= length (buf s))%nat.
Proof.
  intros H. destruct l as [|x l]; [simpl; lia|].
  destruct (Nat.le_gt_cases (length (x :: l)) (length (buf s))); auto.
  pose proof (holds_cells s _ H (length (x :: l) - 1)%nat) as C.
  rewrite (proj2 (nth_error_None (buf s) _)) in C by lia.
  simpl in C. assert (None = Some (nth_error (x :: l) (length l - 0))) by (apply C; lia). discriminate.
Qed.

(** pushSlot: room for one more, old cells kept. *)
Lemma pushSlot_ok v l :
  rep v l -> Z.of_nat (length l) < 1999984 ->
  exists v', pushSlot v = Ret v' tt /\ size v' = Z.of_nat (length (buf v')) /\
    count v' = Z.of_nat (length l) + 1 /\ (length l < length (buf v'))%nat /\
    items v' = Some (buf v') /\
    forall i, (i < length l)%nat -> nth_error (buf v') i = Some (nth_error l i).
Proof.
  intros (Hs & Hc & Hle & Hn) Hlim. unfold pushSlot.
  destruct (Z.eqb_spec (size v) 0) as [E0|E0].
  - assert (l = []) as -> by (destruct l; auto; simpl in *; lia).
    simpl in *. rewrite Hc. cbn.
    eexists. split; [reflexivity|]. cbn. repeat split; auto; try (rewrite repeat_length); try (intros; lia).
  - cbv zeta. destruct (Z.eqb_spec (size v) (count v)) as [Ef|Ef].
    + destruct (Z.leb_spec MAX_ELEMENTS (size v + EXPAND)); [unfold MAX_ELEMENTS, EXPAND in *; lia|].
      assert (Hg : size v < grown (size v)).
      { unfold grown. apply Z.lt_le_trans with (size v + 1); [lia|].
        apply Z.div_le_lower_bound; lia. }
      destruct (copy_loop_ok (count v) (buf v) 0 (fresh (grown (size v))) 0)
        as (r & E & L & N); try rewrite fresh_length; try lia.
      rewrite E. eexists. split; [reflexivity|]. cbn.
      pose proof (fresh_length (grown (size v))) as FL. rewrite L.
      repeat split; try lia.
      intros i Hi. rewrite N.
      destruct (Z.leb_spec 0 (Z.of_nat i)); [|lia].
      destruct (Z.ltb_spec (Z.of_nat i) (0 + count v)); [|lia]. cbn [andb orb].
      rewrite <- Hn by lia. f_equal. lia.
    + eexists. split; [reflexivity|]. cbn.
      unfold buf in *. destruct (items v) as [m|]; simpl in *; [|lia].
      repeat split; auto; lia.
Qed.

Lemma set_item_ok v i x :
  0 <= i < Z.of_nat (length (buf v)) ->
  exists v', set_item v i x = Ret v' tt /\ count v' = count v /\ size v' = size v /\
    buf v' = upd (buf v) (Z.to_nat i) (Some x).
Proof.
  intros H. unfold set_item. rewrite wr_some by lia.
  eexists; split; [reflexivity|]. repeat split; auto.
Qed.

Ltac nths := rewrite ?nth_error_app, ?nth_error_firstn, ?nth_error_skipn, ?firstn_length, ?app_length, ?skipn_length.

Lemma push_ok v l x : rep v l -> Z.of_nat (length l) < 1999984 ->
  exists v', push v x = Ret v' tt /\ rep v' (l ++ [x]).
Proof.
  intros R Hlim. destruct (pushSlot_ok v l R Hlim) as (v1 & E & Hs & Hc & Hlt & _ & Hn).
  unfold push. rewrite E. simpl.
  destruct (set_item_ok v1 (count v1 - 1) x) as (v2 & E2 & C2 & S2 & B2); [lia|].
  exists v2. split; auto. unfold rep. rewrite C2, S2, B2, upd_length, app_length. simpl.
  repeat split; try lia. intros i Hi.
  replace (Z.to_nat (count v1 - 1)) with (length l) by lia.
  destruct (Nat.eq_dec i (length l)) as [->|N].
  - rewrite nth_error_upd_eq by lia. rewrite nth_error_app2 by lia.
    now rewrite Nat.sub_diag.
  - rewrite nth_error_upd_ne by lia. rewrite Hn by lia. now rewrite nth_error_app1 by lia.
Qed.

Lemma set_ok v l i x : rep v l -> 0 <= i < Z.of_nat (length l) ->
  exists v', set v i x = Ret v' tt /\ rep v' (firstn (Z.to_nat i) l ++ x :: skipn (Z.to_nat i + 1) l).
Proof.
  intros (Hs & Hc & Hle & Hn) Hi. unfold set, out_of_size.
  destruct (Z.ltb_spec i 0); [lia|]. destruct (Z.leb_spec (size v) i); [lia|]. cbn [andb orb].
  destruct (set_item_ok v i x) as (v2 & E2 & C2 & S2 & B2); [lia|].
  exists v2. split; auto.
  assert (EL : firstn (Z.to_nat i) l ++ x :: skipn (Z.to_nat i + 1) l = upd l (Z.to_nat i) x).
  { rewrite upd_split by lia. now rewrite Nat.add_1_r. }
  rewrite EL.
  unfold rep. rewrite C2, S2, B2, !upd_length. repeat split; auto.
  intros j Hj. destruct (Nat.eq_dec (Z.to_nat i) j) as [->|N].
  - rewrite !nth_error_upd_eq by lia. reflexivity.
  - rewrite !nth_error_upd_ne by lia. auto.
Qed.

Lemma erase_ok v l i : rep v l -> 0 <= i < Z.of_nat (length l) ->
  exists v', erase v i = Ret v' tt /\ rep v' (firstn (Z.to_nat i) l ++ skipn (Z.to_nat i + 1) l).
Proof.
  intros (Hs & Hc & Hle & Hn) Hi. unfold erase, out_of_size.
  destruct (Z.ltb_spec i 0); [lia|]. destruct (Z.leb_spec (size v) i); [lia|]. cbn [andb orb].
  destruct (for_up_shift (Z.to_nat (count v - 1 - i)) i (buf v)) as (r & E & L & N); try lia.
  rewrite E. eexists. split; [reflexivity|].
  assert (HB : items v = Some (buf v)).
  { unfold buf in *. destruct (items v); auto. simpl in *. lia. }
  unfold rep. rewrite HB. rewrite buf_mk. simpl. rewrite L, app_length, firstn_length, skipn_length.
  repeat split; try lia.
  intros j Hj. rewrite N.
  rewrite nth_error_app, nth_error_firstn, nth_error_skipn, firstn_length.
  rewrite Nat.min_l by lia.
  destruct (Z.leb_spec i (Z.of_nat j)).
  - destruct (Z.ltb_spec (Z.of_nat j) (i + Z.of_nat (Z.to_nat (count v - 1 - i)))); [|lia]. cbn [andb orb].
    destruct (Nat.ltb_spec j (Z.to_nat i)); [lia|].
    rewrite Hn by lia. do 2 f_equal. lia.
  - simpl. destruct (Nat.ltb_spec j (Z.to_nat i)); [|lia]. now rewrite Hn by lia.
Qed.

Lemma pop_ok v l : rep v l -> l <> [] ->
  exists v', pop v = Ret v' tt /\ rep v' (removelast l).
Proof.
  intros R Hne. pose proof R as (Hs & Hc & Hle & Hn). unfold pop.
  assert (0 < Z.of_nat (length l)) by (destruct l; simpl in *; [congruence|lia]).
  destruct (Z.eqb_spec (count v) 0); [lia|].
  destruct (erase_ok v l (count v - 1) R) as (v' & E & R'); [lia|].
  exists v'. split; auto.
  replace (Z.to_nat (count v - 1)) with (length l - 1)%nat in R' by lia.
  rewrite (skipn_all2 l) in R' by lia. rewrite app_nil_r in R'.
  replace (removelast l) with (firstn (length l - 1) l); auto.
  rewrite (removelast_firstn_len l). f_equal. lia.
Qed.

Lemma insert_ok v l i x : rep v l -> 0 <= i <= Z.of_nat (length l) -> Z.of_nat (length l) < 1999984 ->
  exists v', insert v i x = Ret v' tt /\ rep v' (firstn (Z.to_nat i) l ++ x :: skipn (Z.to_nat i) l).
Proof.
  intros R Hi Hlim. pose proof R as (_ & Hc0 & _ & _).
  destruct (pushSlot_ok v l R Hlim) as (v1 & E & Hs & Hc & Hlt & HI & Hn).
  unfold insert. destruct (Z.ltb_spec (count v + 1) i); [lia|]. rewrite E. simpl.
  destruct (for_down_shift (Z.to_nat (count v1 - 1 - i)) (count v1 - 1) (buf v1)) as (r & Er & L & N); try lia.
  rewrite Er.
  destruct (set_item_ok (mkvec (Some r) (count v1) (size v1)) i x) as (v2 & E2 & C2 & S2 & B2); [rewrite buf_mk; lia|].
  exists v2. split; auto. simpl in C2, S2, B2. rewrite buf_mk in B2.
  unfold rep. rewrite C2, S2, B2, upd_length, L, app_length. simpl.
  rewrite firstn_length, skipn_length.
  repeat split; try lia.
  intros j Hj. destruct (Nat.eq_dec j (Z.to_nat i)) as [->|Ne].
  - rewrite nth_error_upd_eq by lia.
    rewrite nth_error_app2 by (rewrite firstn_length; lia).
    rewrite firstn_length, Nat.min_l by lia. now rewrite Nat.sub_diag.
  - rewrite nth_error_upd_ne by lia. rewrite N.
    rewrite nth_error_app, firstn_length, Nat.min_l, nth_error_firstn by lia.
    destruct (Nat.ltb_spec j (Z.to_nat i)).
    + destruct (Z.ltb_spec (count v1 - 1 - Z.of_nat (Z.to_nat (count v1 - 1 - i))) (Z.of_nat j)); [lia|].
      simpl. now rewrite Hn by lia.
    + destruct (Z.ltb_spec (count v1 - 1 - Z.of_nat (Z.to_nat (count v1 - 1 - i))) (Z.of_nat j)); [|lia].
      destruct (Z.leb_spec (Z.of_nat j) (count v1 - 1)); [|lia]. cbn [andb orb].
      rewrite Hn by lia.
      replace (j - Z.to_nat i)%nat with (S (j - Z.to_nat i - 1)) by lia. simpl.
      rewrite nth_error_skipn. do 2 f_equal. lia.
Qed.

Lemma insert_vec_ok v l s ls i n0 : rep v l -> holds s ls -> 0 <= i <= Z.of_nat (length l) ->
  (n0 = -1 \/ n0 = Z.of_nat (length ls)) ->
  Z.of_nat (length l) + Z.of_nat (length ls) < MAX_ELEMENTS ->
  exists v', insert_vec v i s n0 = Ret v' tt /\
    rep v' (firstn (Z.to_nat i) l ++ ls ++ skipn (Z.to_nat i) l).
Proof.
  intros R Hh Hi Hn0 Hlim. pose proof R as (Hs & Hc & Hle & Hn).
  pose proof (holds_len _ _ Hh) as HL. pose proof (holds_cells _ _ Hh) as HC.
  pose proof (proj1 Hh) as Hcs. unfold length_of in Hcs.
  unfold insert_vec. rewrite Hcs.
  destruct (Z.eqb_spec (Z.of_nat (length ls)) 0) as [Ez|Ez].
  { assert (ls = []) as -> by (destruct ls; auto; simpl in *; lia). simpl.
    rewrite firstn_skipn. eauto. }
  assert (En : (if n0 =? -1 then Z.of_nat (length ls) else n0) = Z.of_nat (length ls)).
  { destruct (Z.eqb_spec n0 (-1)); lia. }
  rewrite En. destruct (Z.ltb_spec (Z.of_nat (length ls)) (Z.of_nat (length ls))); [lia|].
  destruct (Z.ltb_spec (count v) i); [lia|]. cbv zeta.
  set (g := size v <=? Z.of_nat (length ls) + count v).
  set (v1 := if g then mkvec (items v) (count v) (Z.of_nat (length ls) + count v) else v).
  assert (Hb : buf v1 = buf v) by (unfold v1; destruct g; reflexivity).
  assert (Hc1 : count v1 = count v) by (unfold v1; destruct g; reflexivity).
  assert (Hs1 : Z.of_nat (length ls) + count v <= size v1).
  { unfold v1, g. destruct (Z.leb_spec (size v) (Z.of_nat (length ls) + count v)); simpl; lia. }
  assert (Hg : g && (MAX_ELEMENTS <=? size v1) = false).
  { unfold v1, g. destruct (Z.leb_spec (size v) (Z.of_nat (length ls) + count v)); simpl; auto.
    apply Z.leb_gt. lia. }
  rewrite Hg, Hb, Hc1.
  pose proof (fresh_length (size v1)) as FL.
  destruct (copy_loop_ok i (buf v) 0 (fresh (size v1)) 0) as (m1 & E1 & L1 & N1); try lia.
  rewrite E1.
  destruct (copy_loop_ok (Z.of_nat (length ls)) (buf s) 0 m1 i) as (m2 & E2 & L2 & N2); try lia.
  rewrite E2.
  destruct (copy_loop_ok (count v - i) (buf v) i m2 (i + Z.of_nat (length ls))) as (m3 & E3 & L3 & N3); try lia.
  rewrite E3. eexists. split; [reflexivity|].
  unfold rep. rewrite buf_mk. simpl. rewrite !app_length, firstn_length, skipn_length.
  repeat split; try lia.
  intros j Hj.
  rewrite N3, N2, N1. rewrite !nth_error_app, nth_error_firstn, nth_error_skipn, firstn_length.
  rewrite Nat.min_l by lia.
  destruct (Nat.ltb_spec j (Z.to_nat i)).
  - destruct (Z.leb_spec (i + Z.of_nat (length ls)) (Z.of_nat j)); [lia|]. cbn [andb orb].
    destruct (Z.leb_spec i (Z.of_nat j)); [lia|]. cbn [andb orb].
    destruct (Z.leb_spec 0 (Z.of_nat j)); [|lia].
    destruct (Z.ltb_spec (Z.of_nat j) (0 + i)); [|lia]. cbn [andb orb].
    rewrite <- Hn by lia. f_equal; lia.
  - destruct (Nat.ltb_spec (j - Z.to_nat i) (length ls)).
    + destruct (Z.leb_spec (i + Z.of_nat (length ls)) (Z.of_nat j)); [lia|]. cbn [andb orb].
      destruct (Z.leb_spec i (Z.of_nat j)); [|lia].
      destruct (Z.ltb_spec (Z.of_nat j) (i + Z.of_nat (length ls))); [|lia]. cbn [andb orb].
      rewrite <- HC by lia. f_equal; lia.
    + destruct (Z.leb_spec (i + Z.of_nat (length ls)) (Z.of_nat j)); [|lia].
      destruct (Z.ltb_spec (Z.of_nat j) (i + Z.of_nat (length ls) + (count v - i))); [|lia]. cbn [andb orb].
      rewrite <- Hn by lia. f_equal; lia.
Qed.

Lemma vstep_ok den o v l l' x :
  rep v l -> (forall s, In s (sources [o]) -> holds s (den s)) ->
  seq_step den o l = Some (l', x) -> Z.of_nat (length l') < 1999985 ->
  exists v', vstep o v = Ret v' x /\ rep v' l'.
Proof.
  intros R Hsrc Hst Hlim.
  destruct o as [a| |i a|i|i a|i|s|i s| |]; cbn [seq_step] in Hst.
  - inversion Hst; subst; clear Hst. rewrite app_length in Hlim; simpl in Hlim.
    destruct (push_ok v l a R) as (v' & E & R'); [lia|]. simpl. rewrite E. simpl. eauto.
  - destruct l as [|y l]; inversion Hst; subst; clear Hst.
    destruct (pop_ok v (y :: l) R) as (v' & E & R'); [congruence|]. simpl. rewrite E. simpl. eauto.
  - destruct (_ && _) eqn:B in Hst; inversion Hst; subst; clear Hst.
    destruct (set_ok v l i a R) as (v' & E & R'); [lia|]. simpl. rewrite E. simpl. eauto.
  - destruct (_ && _) eqn:B in Hst; inversion Hst; subst; clear Hst.
    destruct (rep_holds v _ R) as [_ H]. destruct (H i) as (y & Hy & Hg); [lia|].
    simpl. rewrite Hg. simpl. rewrite Hy. eauto.
  - destruct (_ && _) eqn:B in Hst; inversion Hst; subst; clear Hst.
    rewrite app_length in Hlim; simpl in Hlim. rewrite firstn_length, skipn_length in Hlim.
    destruct (insert_ok v l i a R) as (v' & E & R'); [lia|lia|]. simpl. rewrite E. simpl. eauto.
  - destruct (_ && _) eqn:B in Hst; inversion Hst; subst; clear Hst.
    destruct (erase_ok v l i R) as (v' & E & R'); [lia|]. simpl. rewrite E. simpl. eauto.
  - inversion Hst; subst; clear Hst. rewrite app_length in Hlim.
    assert (Hh : holds s (den s)) by (apply Hsrc; simpl; auto).
    pose proof R as (_ & Hc & _ & _).
    destruct (insert_vec_ok v l s (den s) (count v) (count s) R Hh) as (v' & E & R').
    + lia.
    + right. apply (proj1 Hh).
    + unfold MAX_ELEMENTS. lia.
    + simpl. unfold concat. rewrite E. simpl. exists v'. split; auto.
      rewrite Hc, Nat2Z.id, firstn_all, skipn_all, app_nil_r in R'. exact R'.
  - destruct (_ && _) eqn:B in Hst; inversion Hst; subst; clear Hst.
    rewrite !app_length, firstn_length, skipn_length in Hlim.
    assert (Hh : holds s (den s)) by (apply Hsrc; simpl; auto).
    destruct (insert_vec_ok v l s (den s) i (-1) R Hh) as (v' & E & R'); auto.
    + lia.
    + unfold MAX_ELEMENTS. lia.
    + simpl. rewrite E. simpl. eauto.
  - inversion Hst; subst. simpl. exists v_empty. split; auto. apply rep_empty.
  - inversion Hst; subst. simpl. exists v. split; auto.
    destruct R as (_ & Hc & _). unfold length_of. now rewrite Hc.
Qed.

Lemma vrun_ok den os : forall v l l' xs,
  rep v l -> (forall s, In s (sources os) -> holds s (den s)) ->
  seq_run den 1999985 os l = Some (l', xs) ->
  exists v', vrun os v = Ret v' xs /\ rep v' l'.
Proof.
  induction os as [|o os IH]; intros v l l' xs R Hsrc Hrun.
  - simpl in *. inversion Hrun; subst. eauto.
  - cbn [seq_run] in Hrun. destruct (seq_step den o l) as [[l1 x]|] eqn:E1; [|discriminate].
    destruct (Z.ltb_spec (Z.of_nat (length l1)) 1999985); [|discriminate].
    destruct (seq_run den 1999985 os l1) as [[l2 ys]|] eqn:E2; [|discriminate].
    inversion Hrun; subst; clear Hrun.
    destruct (vstep_ok den o v l l1 x R) as (v1 & Es & R1); auto.
    { intros s Hs. apply Hsrc. unfold sources in *. simpl in *. apply in_or_app. left.
      rewrite app_nil_r in Hs. exact Hs. }
    destruct (IH v1 l1 l' ys R1) as (v2 & Er & R2); auto.
    { intros s Hs. apply Hsrc. unfold sources in *. simpl. apply in_or_app. now right. }
    exists v2. split; auto. simpl. rewrite Es. simpl. now rewrite Er.
Qed.

(** *** out of range *)
Lemma outside_rejected v l i x : rep v l -> i < 0 \/ size v <= i ->
  get v i = Exc v /\ set v i x = Exc v /\ erase v i = Exc v.
Proof.
  intros _ Hi. unfold get, set, erase, out_of_size.
  assert ((i <? 0) || (size v <=? i) = true) as ->; [|auto].
  destruct (Z.ltb_spec i 0); auto. destruct (Z.leb_spec (size v) i); auto. lia.
Qed.

(** *** assignment *)
Lemma assign_ok v s l : rep s l -> items s <> None -> exists v', assign v s = Ret v' tt /\ rep v' l.
Proof.
  intros (Hs & Hc & Hle & Hn) Hne. unfold assign, copy_from.
  destruct (items s) as [sb|] eqn:Ei; [|congruence].
  assert (Hb : buf s = sb) by (unfold buf; now rewrite Ei).
  rewrite <- Hb.
  pose proof (fresh_length (size s)) as FL.
  destruct (copy_loop_ok (count s) (buf s) 0 (fresh (size s)) 0) as (m & E & L & N); try lia.
  rewrite E. eexists. split; [reflexivity|]. unfold rep. rewrite buf_mk. simpl.
  repeat split; try lia. intros i Hi. rewrite N.
  destruct (Z.leb_spec 0 (Z.of_nat i)); [|lia].
  destruct (Z.ltb_spec (Z.of_nat i) (0 + count s)); [|lia]. cbn [andb orb].
  rewrite <- Hn by lia. f_equal; lia.
Qed.

End Proofs.
