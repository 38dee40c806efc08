(** Theorems about script objects (C54, C90). *)
From Coq Require Import List ZArith Lia Bool.
From Verif Require Import Base MapModel MapSpec MapProofs MapProps VectorModel ValueModel ArrayModel ArraySpec ArrayProofs
  ObjectModel ObjectSpec ObjectProofs.
Import ListNotations.
Open Scope Z_scope.

(** C90. Any history of making, writing, reading, asking, erasing, clearing, extending, adding and
    listing, in which only present fields are erased and no object gets more than 999984 fields,
    gives the answers of insertion-ordered finite maps, and leaves every object showing its map. *)
Theorem C90_objects_are_maps : forall var os ls xs, Forall (fun o => Forall plain (oargs o)) os ->
  objs_run 999984 os [] = Some (ls, xs) ->
  exists w, orun var os ow_empty = Ret w xs /\ length (wobjs w) = length ls /\
    forall a l, nth_error ls a = Some l -> oshows w a l.
Proof.
  intros var os ls xs P E.
  destruct (orun_ok var os ow_empty [] [] ls xs owrep_empty) as (w & kss & E1 & W & _); auto; try (intros []; discriminate).
  exists w. split; auto. split; [apply W|]. intros a l El. eapply owrep_shows; eauto.
Qed.

(** What the finite maps are: the value last written, nothing after erasing. *)
Theorem C90_field_laws : forall (l : obj) k x j,
  field (with_field l k x) j = (if list_eq_dec Z.eq_dec k j then Some x else field l j) /\
  field (without l k) j = (if list_eq_dec Z.eq_dec k j then None else field l j) /\
  List.map fst (with_field l k x) = match field l k with Some _ => List.map fst l | None => List.map fst l ++ [k] end.
Proof.
  intros l k x j. split; [rewrite field_with; unfold same; now destruct (list_eq_dec Z.eq_dec k j)|]. split; [|apply keys_with].
  unfold without. induction l as [|[k2 z] l IH]; [cbn [filter]; rewrite field_nil; now destruct (list_eq_dec Z.eq_dec k j)|].
  cbn [filter fst]. rewrite field_cons. cbn [fst snd]. destruct (same_spec k2 k) as [->|H]; cbn [negb].
  - rewrite IH. destruct (list_eq_dec Z.eq_dec k j) as [->|Hj]; auto. destruct (same_spec k j); [congruence|auto].
  - rewrite field_cons, IH. cbn [fst snd]. destruct (same_spec k2 j) as [->|]; auto.
    destruct (list_eq_dec Z.eq_dec k j); [congruence|auto].
Qed.

(** Erasing a field that is not there is reported and changes nothing. *)
Theorem C90_erase_missing : forall var os ls xs a l k, Forall (fun o => Forall plain (oargs o)) os ->
  objs_run 999984 os [] = Some (ls, xs) -> nth_error ls a = Some l -> field l k = None ->
  exists w, orun var os ow_empty = Ret w xs /\ ostep var (OErase a k) w = Exc w.
Proof.
  intros var os ls xs a l k P E El Hk.
  destruct (orun_ok var os ow_empty [] [] ls xs owrep_empty) as (w & kss & E1 & W & _); auto; try (intros []; discriminate).
  exists w. split; auto. destruct (owrep_at _ _ _ _ _ W El) as (v & ks & Ev & _ & (R & N & F)).
  cbn [ostep]. unfold oon. rewrite Ev. unfold o_erase. cbn [flds]. rewrite (sm_get _ _ _ R).
  pose proof (lookup_field _ _ _ k F) as L. destruct (lookup streqb k ks); [destruct L as (x & Hx & _); congruence|].
  cbn [omem flds bind oquiet]. rewrite upd_same by auto. now destruct w.
Qed.

(** C54. Adding two objects, after any history: the new object, the last one, has exactly the
    fields of both, the right one winning, in the order of the left names and then the new right
    ones; every other object shows what it showed before. *)
Theorem C54_concat : forall var os ls xs a b la lb, Forall (fun o => Forall plain (oargs o)) os ->
  objs_run 999984 os [] = Some (ls, xs) -> nth_error ls a = Some la -> nth_error ls b = Some lb ->
  Z.of_nat (length la) + Z.of_nat (length lb) <= 999984 ->
  exists w w' lc, orun var os ow_empty = Ret w xs /\ ostep var (OConcat a b) w = Ret w' ObNothing /\
    length (wobjs w') = S (length ls) /\ oshows w' (length ls) lc /\
    (forall k, field lc k = match field lb k with Some x => Some x | None => field la k end) /\
    List.map fst lc = List.map fst la ++ filter (fun k => negb (existsb (same k) (List.map fst la))) (List.map fst lb) /\
    (forall c l, nth_error ls c = Some l -> oshows w c l /\ oshows w' c l).
Proof.
  intros var os ls xs a b la lb P E Ea Eb Hn.
  destruct (orun_ok var os ow_empty [] [] ls xs owrep_empty) as (w & kss & E1 & W & Pl & Sh); auto; try (intros []; discriminate).
  exists w.
  destruct (owrep_at _ _ _ _ _ W Ea) as (va & ka & _ & _ & Aa). destruct (owrep_at _ _ _ _ _ W Eb) as (vb & kb & _ & _ & Ab).
  pose proof (orep_nodup _ _ _ _ Aa) as Na. pose proof (orep_nodup _ _ _ _ Ab) as Nb.
  assert (K : forall l a0, (length (over a0 l) <= length a0 + length l)%nat).
  { induction l as [|[k x] l IH]; intros a0; [simpl; lia|]. unfold over. cbn [fold_left fst snd length].
    specialize (IH (with_field a0 k x)). unfold over in IH.
    assert (length (with_field a0 k x) <= S (length a0))%nat; [|lia].
    unfold with_field. destruct (field a0 k); [rewrite map_length; lia|rewrite app_length; simpl; lia]. }
  assert (Fo : forall l a0 k, NoDup (List.map fst l) -> field (over a0 l) k = match field l k with Some x => Some x | None => field a0 k end).
  { induction l as [|[k x] l IH]; intros a0 j N; auto. unfold over. cbn [fold_left fst snd List.map] in *. inversion N as [|? ? N1 N2]; subst.
    fold (over (with_field a0 k x) l). rewrite IH by auto. rewrite field_with, field_cons. cbn [fst snd].
    destruct (same_spec k j) as [->|]; auto. apply field_none in N1. now rewrite N1. }
  assert (Ko : forall l a0, NoDup (List.map fst l) -> List.map fst (over a0 l) =
            List.map fst a0 ++ filter (fun k => negb (existsb (same k) (List.map fst a0))) (List.map fst l)).
  { induction l as [|[k x] l IH]; intros a0 N; [cbn; now rewrite app_nil_r|]. unfold over. cbn [fold_left fst snd List.map filter] in *.
    inversion N as [|? ? N1 N2]; subst. fold (over (with_field a0 k x) l). rewrite IH, keys_with by auto.
    assert (X : existsb (same k) (List.map fst a0) = match field a0 k with Some _ => true | None => false end).
    { clear. induction a0 as [|[k2 z] a0 IH]; auto. rewrite field_cons. cbn [List.map existsb fst snd]. rewrite IH.
      destruct (same_spec k k2) as [E0|E0], (same_spec k2 k) as [E3|E3]; auto; congruence. }
    rewrite X. destruct (field a0 k) eqn:Ef; cbn [negb]; auto.
    rewrite <- app_assoc. cbn [app]. f_equal. f_equal. apply filter_ext_in. intros j Hj.
    rewrite existsb_app. cbn [existsb]. destruct (same_spec j k) as [->|]; [tauto|]. now rewrite !orb_false_r. }
  destruct (ostep_ok var (OConcat a b) w kss ls (ls ++ [over la lb]) ObNothing W Pl Sh) as (w' & kss' & E2 & W' & _).
  - constructor.
  - cbn [objs_step]. now rewrite Ea, Eb.
  - intros c l Ec. destruct (Nat.lt_ge_cases c (length ls)) as [Hc|Hc].
    + rewrite nth_error_app1 in Ec by auto. eauto.
    + rewrite nth_error_app2 in Ec by auto. destruct (c - length ls)%nat as [|d]; [|destruct d; discriminate].
      injection Ec as <-. specialize (K lb la). unfold STR_CAP. lia.
  - exists w', (over la lb). split; auto. split; auto. split.
    { rewrite (proj1 W'), app_length. simpl. lia. }
    split. { eapply owrep_shows; eauto. rewrite nth_error_app2, Nat.sub_diag by lia. reflexivity. }
    split; [intros k; now apply Fo|]. split; [now apply Ko|].
    intros c l Ec. split; eapply owrep_shows; eauto. rewrite nth_error_app1; auto. apply nth_error_Some. congruence.
Qed.

(** Cases. Names "a", "b", "c". *)
Definition str_a : list Z := [97]. Definition str_b : list Z := [98]. Definition str_c : list Z := [99].
Definition i_ (z : Z) : stk := Stk z P_INT.
Definition story : list oop :=
  [ONew; OSet 0 str_b (i_ 1); OSet 0 str_a (i_ 2); ONew; OSet 1 str_c (i_ 3); OSet 1 str_b (i_ 4); OConcat 0 1;
   OErase 2 str_a; OSet 2 str_a (i_ 5); OKeys 2; OGet 2 str_b; OContains 0 str_c; OGet 0 str_c; OExtend 0 0; OExtend 0 1;
   OKeys 0; OClear 1; OKeys 1; OKeys 0].
Example C90_case : Forall (fun o => Forall plain (oargs o)) story /\
  exists w, orun (fun _ => k_undefined) story ow_empty = Ret w
    [ObNothing; ObNothing; ObNothing; ObNothing; ObNothing; ObNothing; ObNothing; ObNothing; ObNothing;
     ObKeys [str_b; str_c; str_a]; ObElem (i_ 4); ObBool false; ObElem k_undefined; ObNothing; ObNothing;
     ObKeys [str_b; str_a; str_c]; ObNothing; ObKeys []; ObKeys [str_b; str_a; str_c]] /\
  ostep (fun _ => k_undefined) (OErase 1 str_a) w = Exc w.
Proof.
  assert (P : Forall (fun o => Forall plain (oargs o)) story).
  { assert (Q : forall z, plain (i_ z)) by (intros z; unfold plain, i_; cbn [props In]; auto 10).
    unfold story. repeat (apply Forall_cons; [cbn [oargs]; auto|]). auto. }
  split; auto.
  destruct (C90_objects_are_maps (fun _ => k_undefined) story
    [[(str_b, i_ 4); (str_a, i_ 2); (str_c, i_ 3)]; []; [(str_b, i_ 4); (str_c, i_ 3); (str_a, i_ 5)]] _ P eq_refl) as (w & E & _).
  exists w. split; [exact E|].
  destruct (C90_erase_missing (fun _ => k_undefined) story _ _ 1%nat [] str_a P eq_refl eq_refl eq_refl) as (w2 & E2 & H).
  rewrite E in E2. injection E2 as <-. exact H.
Qed.
Example C54_case :
  let os := firstn 6 story in
  exists ls xs la lb, objs_run 999984 os [] = Some (ls, xs) /\ nth_error ls 0 = Some la /\ nth_error ls 1 = Some lb /\
    length la = 2%nat /\ length lb = 2%nat /\ over la lb = [(str_b, i_ 4); (str_a, i_ 2); (str_c, i_ 3)].
Proof. eexists _, _, _, _. repeat split. Qed.

Print Assumptions C90_objects_are_maps.
Print Assumptions C90_field_laws.
Print Assumptions C90_erase_missing.
Print Assumptions C54_concat.
