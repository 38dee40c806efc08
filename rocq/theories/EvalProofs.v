(** Facts about the stack and the code of System::eval. *)
From Coq Require Import ZArith List Bool Lia.
From Verif Require Import Base FloatModel ExprModel VmModel StmtModel EvalModel.
Import ListNotations.
Local Open Scope Z_scope.

Section Stack.
Variable A : Type.
Variable und : A.
Notation mem := (mem A).

Definition within (i n j : Z) : bool := (i <=? j) && (j <? i + n).
Lemma within_t : forall i n j, within i n j = true <-> i <= j < i + n.
Proof. intros. unfold within. rewrite andb_true_iff, Z.leb_le, Z.ltb_lt. tauto. Qed.
Lemma within_f : forall i n j, within i n j = false <-> ~ (i <= j < i + n).
Proof. intros. rewrite <- within_t. destruct (within i n j); split; congruence. Qed.

Ltac wi := repeat match goal with
  | |- context [within ?a ?b ?c] => let E := fresh "E" in destruct (within a b c) eqn:E; [apply within_t in E | apply within_f in E]
  | |- context [?a =? ?b] => let E := fresh "E" in destruct (Z.eqb_spec a b)
  end.

Lemma fill_at : forall k i (m : mem) j, fill und k i m j = if within i (Z.of_nat k) j then und else m j.
Proof.
  induction k as [|k IH]; intros i m j; cbn [fill].
  - wi; try reflexivity; lia.
  - rewrite IH. unfold mset. wi; try reflexivity; lia.
Qed.
Lemma put_at : forall vs i (m : mem) j,
  put vs i m j = if within i (Z.of_nat (length vs)) j then nth (Z.to_nat (j - i)) vs und else m j.
Proof.
  induction vs as [|v vs IH]; intros i m j; cbn [put length].
  - wi; try reflexivity; lia.
  - rewrite IH. unfold mset. wi; try reflexivity; try lia.
    + replace (Z.to_nat (j - i)) with (Datatypes.S (Z.to_nat (j - (i + 1)))) by lia. reflexivity.
    + subst. replace (Z.to_nat (i - i)) with O by lia. reflexivity.
Qed.
Lemma copy_at : forall k dst src (m : mem) j, dst <= src ->
  copy k dst src m j = if within dst (Z.of_nat k) j then m (src + (j - dst)) else m j.
Proof.
  induction k as [|k IH]; intros dst src m j H; cbn [copy].
  - wi; try reflexivity; lia.
  - rewrite IH by lia. unfold mset. wi; try reflexivity; try lia.
    + f_equal. lia.
    + f_equal. lia.
Qed.
Lemma invert_at : forall k i b n (m : mem) j, 0 <= i -> 2 * (i + Z.of_nat k) <= n ->
  invert k i b n m j =
  if within (b + i) (Z.of_nat k) j || within (b + n - i - Z.of_nat k) (Z.of_nat k) j
  then m (b + (n - 1 - (j - b))) else m j.
Proof.
  induction k as [|k IH]; intros i b n m j Hi Hk; cbn [invert].
  - wi; cbn [orb]; try reflexivity; lia.
  - cbv zeta. rewrite IH by lia. unfold mset.
    wi; cbn [orb]; subst; try reflexivity; try lia; f_equal; lia.
Qed.

(** All [n] elements inverted. *)
Lemma invert_all : forall n b (m : mem) j, 0 <= n ->
  invert (Z.to_nat (n / 2)) 0 b n m j = if within b n j then m (b + (n - 1 - (j - b))) else m j.
Proof.
  intros n b m j Hn. pose proof (Z.div_mod n 2 ltac:(lia)). pose proof (Z.mod_pos_bound n 2 ltac:(lia)).
  rewrite invert_at by lia.
  wi; cbn [orb]; try reflexivity; try lia. f_equal. lia.
Qed.
Lemma invert_none : forall n b (m : mem), n <= 0 -> invert (Z.to_nat (n / 2)) 0 b n m = m.
Proof.
  intros n b m Hn. replace (Z.to_nat (n / 2)) with O; [reflexivity|].
  pose proof (Z.div_le_upper_bound n 2 0 ltac:(lia) ltac:(lia)). lia.
Qed.

Ltac rw := repeat first [rewrite copy_at by lia | rewrite invert_all by lia | rewrite fill_at | rewrite put_at].

(** The elements from [b] on. *)
Definition slice (m : mem) (b : Z) (r : nat) : list A := map (fun i => m (b + Z.of_nat i)) (seq 0 r).
Lemma slice_nth : forall m b r l, length l = r -> (forall i, (i < r)%nat -> m (b + Z.of_nat i) = nth i l und) ->
  slice m b r = l.
Proof.
  intros m b r l Hl H. unfold slice. apply (nth_ext _ _ und und).
  - rewrite map_length, seq_length. auto.
  - intros i Hi. rewrite map_length, seq_length in Hi.
    rewrite (nth_indep _ und ((fun i => m (b + Z.of_nat i)) O)) by (rewrite map_length, seq_length; auto).
    rewrite (map_nth (fun i => m (b + Z.of_nat i))), seq_nth by auto. cbn. apply H. auto.
Qed.

(** ** The call when values are returned. *)
Lemma nth_repeat_und : forall n i, nth i (repeat und n) und = und.
Proof. induction n; destruct i; cbn; auto. Qed.

Theorem call_returned : forall b na np nl r vs (m m' : mem) cur, 0 <= na -> 0 <= np -> 0 <= nl -> 0 <= r ->
  eval_call und b na np nl r (Some vs) m = (m', cur) ->
  cur = b + r /\
  (forall j, j < b -> m' j = m j) /\
  slice m' b (Z.to_nat r) =
  firstn (Z.to_nat r) (repeat und (Z.to_nat r - (Z.to_nat nl + length vs)) ++ repeat und (Z.to_nat nl) ++ vs).
Proof.
  intros b na np nl r vs m m' cur Ha Hp Hl Hr E. unfold eval_call, left_by, hand_over, deliver_native in E.
  set (E0 := b + na) in *. set (N := nl + Z.of_nat (length vs)).
  replace (E0 + np + nl + Z.of_nat (length vs) - (E0 + np)) with N in E by lia.
  replace (E0 + N - E0) with N in E by lia.
  assert (HN : 0 <= N) by lia.
  assert (Hx : Z.max N r = Z.of_nat (length vs) + nl + Z.max 0 (r - N)) by lia.
  assert (E1 : m' = fst (m', cur)) by reflexivity. assert (E2 : cur = snd (m', cur)) by reflexivity.
  rewrite <- E in E1, E2. cbn [fst snd] in E1, E2. clear E. subst m'. split; [exact E2|]. split.
  - intros j Hj. rw. wi; try reflexivity; lia.
  - apply slice_nth.
    + rewrite firstn_length, !app_length, !repeat_length. lia.
    + intros i Hi. rw.
      set (L := repeat und (Z.to_nat r - (Z.to_nat nl + length vs)) ++ repeat und (Z.to_nat nl) ++ vs).
      assert (HL : nth i (firstn (Z.to_nat r) L) und = nth i L und).
      { rewrite <- (firstn_skipn (Z.to_nat r) L) at 2. rewrite app_nth1; [reflexivity|].
        rewrite firstn_length. unfold L. rewrite !app_length, !repeat_length. lia. }
      rewrite HL. unfold L.
      destruct (Nat.lt_ge_cases i (Z.to_nat r - (Z.to_nat nl + length vs))) as [H1 | H1].
      { rewrite app_nth1 by (rewrite repeat_length; lia). rewrite nth_repeat_und. wi; try reflexivity; lia. }
      rewrite app_nth2 by (rewrite repeat_length; lia). rewrite repeat_length.
      destruct (Nat.lt_ge_cases (i - (Z.to_nat r - (Z.to_nat nl + length vs))) (Z.to_nat nl)) as [H2 | H2].
      { rewrite app_nth1 by (rewrite repeat_length; lia). rewrite nth_repeat_und. wi; try reflexivity; lia. }
      rewrite app_nth2 by (rewrite repeat_length; lia). rewrite repeat_length.
      wi; try lia. f_equal. lia.
Qed.

(** ** The call when END_FUNCTION is reached. *)
Theorem call_ended : forall b na np nl r (m m' : mem) cur, 0 <= na -> 0 <= np -> 0 <= nl -> 0 <= r ->
  eval_call und b na np nl r None m = (m', cur) ->
  cur = b + r /\
  (forall j, j < b -> m' j = if b + na - np <=? j then und else m j) /\
  slice m' b (Z.to_nat r) = repeat und (Z.to_nat r).
Proof.
  intros b na np nl r m m' cur Ha Hp Hl Hr E. unfold eval_call, left_by, hand_over, deliver_native in E.
  set (E0 := b + na) in *.
  replace (E0 - (E0 + np)) with (- np) in E by lia.
  replace (E0 + - np - E0) with (- np) in E by lia.
  replace (Z.to_nat (- np)) with O in E by lia. cbn [copy] in E. rewrite (invert_none (- np)) in E by lia.
  replace (Z.max (- np) r) with r in E by lia.
  assert (E1 : m' = fst (m', cur)) by reflexivity. assert (E2 : cur = snd (m', cur)) by reflexivity.
  rewrite <- E in E1, E2. cbn [fst snd] in E1, E2. clear E. subst m'. split; [exact E2|]. split.
  - intros j Hj. rw.
    destruct (Z.leb_spec (E0 - np) j); wi; try reflexivity; lia.
  - apply slice_nth; [apply repeat_length|].
    intros i Hi. rewrite nth_repeat_und. rw.
    wi; try reflexivity; lia.
Qed.
End Stack.
