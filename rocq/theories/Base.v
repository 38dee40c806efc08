(** Common vocabulary of the models: outcomes, C-like arrays, C-like loops.
    Nothing here is specific to one C++ file. *)
From Coq Require Import List ZArith Lia Bool.
Import ListNotations.
Open Scope Z_scope.

(** Result of running a piece of C++ that mutates a state [S] and returns [A]:
    normal return, a C++ exception / script error (with the state it leaves
    behind), or undefined behaviour (out-of-bounds access, use after free,
    signed overflow, endless loop). *)
Inductive outcome (S A : Type) : Type :=
| Ret (s : S) (a : A)
| Exc (s : S)
| Undef.
Arguments Ret {S A} s a.
Arguments Exc {S A} s.
Arguments Undef {S A}.

Definition bind {S A B} (m : outcome S A) (f : S -> A -> outcome S B) : outcome S B :=
  match m with
  | Ret s a => f s a
  | Exc s => Exc s
  | Undef => Undef
  end.

(** A C array: the list of its cells. Access outside of the list is undefined
    behaviour, reported as [None]. *)
Definition rd {C} (m : list C) (i : Z) : option C :=
  if i <? 0 then None else nth_error m (Z.to_nat i).

Fixpoint upd {C} (m : list C) (i : nat) (c : C) : list C :=
  match m, i with
  | [], _ => []
  | _ :: r, O => c :: r
  | x :: r, S i' => x :: upd r i' c
  end.

Definition wr {C} (m : list C) (i : Z) (c : C) : option (list C) :=
  if (i <? 0) || (Z.of_nat (length m) <=? i) then None
  else Some (upd m (Z.to_nat i) c).

(** [for (i = lo; i < lo + n; i++) body(i)] *)
Fixpoint for_up {S} (n : nat) (i : Z) (body : Z -> S -> option S) (s : S) : option S :=
  match n with
  | O => Some s
  | S n' => match body i s with
            | Some s' => for_up n' (i + 1) body s'
            | None => None
            end
  end.

(** [for (i = hi; i > hi - n; i--) body(i)] *)
Fixpoint for_down {S} (n : nat) (i : Z) (body : Z -> S -> option S) (s : S) : option S :=
  match n with
  | O => Some s
  | S n' => match body i s with
            | Some s' => for_down n' (i - 1) body s'
            | None => None
            end
  end.

(** [dst[di] = src[si]] *)
Definition cpy {C} (src : list C) (si : Z) (dst : list C) (di : Z) : option (list C) :=
  match rd src si with
  | Some c => wr dst di c
  | None => None
  end.

(** *** Facts *)

Lemma upd_length {C} (m : list C) i c : length (upd m i c) = length m.
Proof. revert i; induction m as [|x m IH]; intros [|i]; simpl; auto. Qed.

Lemma nth_error_upd_eq {C} (m : list C) i c :
  (i < length m)%nat -> nth_error (upd m i c) i = Some c.
Proof.
  revert i; induction m as [|x m IH]; intros [|i] H; simpl in *; try lia; auto.
  apply IH; lia.
Qed.

Lemma nth_error_upd_ne {C} (m : list C) i j c :
  i <> j -> nth_error (upd m i c) j = nth_error m j.
Proof.
  revert i j; induction m as [|x m IH]; intros [|i] [|j] H; simpl in *; auto; try lia.
Qed.

Lemma upd_app_r {C} (a b : list C) i c :
  (length a <= i)%nat -> upd (a ++ b) i c = a ++ upd b (i - length a) c.
Proof.
  revert i; induction a as [|x a IH]; intros i H; simpl in *.
  - now rewrite Nat.sub_0_r.
  - destruct i; [lia|]. simpl. now rewrite IH by lia.
Qed.

Lemma upd_app_l {C} (a b : list C) i c :
  (i < length a)%nat -> upd (a ++ b) i c = upd a i c ++ b.
Proof.
  revert i; induction a as [|x a IH]; intros i H; simpl in *; [lia|].
  destruct i; simpl; [reflexivity|]. now rewrite IH by lia.
Qed.

Lemma upd_split {C} (m : list C) i c :
  (i < length m)%nat -> upd m i c = firstn i m ++ c :: skipn (S i) m.
Proof.
  revert i; induction m as [|x m IH]; intros [|i] H; simpl in *; try lia; auto.
  rewrite IH by lia. reflexivity.
Qed.

Lemma wr_some {C} (m : list C) i c :
  0 <= i < Z.of_nat (length m) -> wr m i c = Some (upd m (Z.to_nat i) c).
Proof.
  intros H. unfold wr.
  destruct (Z.ltb_spec i 0); [lia|]. destruct (Z.leb_spec (Z.of_nat (length m)) i); [lia|].
  reflexivity.
Qed.

Lemma rd_some {C} (m : list C) i c :
  rd m i = Some c <-> 0 <= i /\ nth_error m (Z.to_nat i) = Some c.
Proof.
  unfold rd. destruct (Z.ltb_spec i 0); split.
  - discriminate.
  - intros [? ?]; lia.
  - intros; split; auto.
  - intros [? ?]; auto.
Qed.

Lemma rd_in {C} (m : list C) i :
  0 <= i < Z.of_nat (length m) -> exists c, rd m i = Some c.
Proof.
  intros H. unfold rd. destruct (Z.ltb_spec i 0); [lia|].
  destruct (nth_error m (Z.to_nat i)) eqn:E; eauto.
  apply nth_error_None in E. lia.
Qed.

Lemma rd_nth {C} (m : list C) i :
  0 <= i -> rd m i = nth_error m (Z.to_nat i).
Proof. intros H. unfold rd. destruct (Z.ltb_spec i 0); [lia|]. reflexivity. Qed.

(** Lists equal when all positions agree. *)
Lemma nth_error_ext {C} (a b : list C) :
  (forall i, nth_error a i = nth_error b i) -> a = b.
Proof.
  revert b; induction a as [|x a IH]; intros [|y b] H; auto.
  - specialize (H O); discriminate.
  - specialize (H O); discriminate.
  - f_equal.
    + specialize (H O); simpl in H; congruence.
    + apply IH. intros i. exact (H (S i)).
Qed.

(** Ascending copy loop: cells [d .. d+n-1] of [dst] become cells [s ..] of [src],
    [src] being another array. *)
Lemma for_up_copy {C} (src : list C) n :
  forall i so d dst,
  0 <= i + so -> 0 <= i + d ->
  i + so + Z.of_nat n <= Z.of_nat (length src) ->
  i + d + Z.of_nat n <= Z.of_nat (length dst) ->
  exists r, for_up n i (fun k st => cpy src (k + so) st (k + d)) dst = Some r
    /\ length r = length dst
    /\ forall j, nth_error r j =
         if ((i + d <=? Z.of_nat j) && (Z.of_nat j <? i + d + Z.of_nat n))
         then nth_error src (Z.to_nat (Z.of_nat j - d + so))
         else nth_error dst j.
Proof.
  induction n as [|n IH]; intros i so d dst H1 H2 H3 H4.
  - exists dst. simpl. repeat split; auto. intros j.
    destruct (Z.leb_spec (i + d) (Z.of_nat j)); simpl; auto.
    destruct (Z.ltb_spec (Z.of_nat j) (i + d + 0)); auto. lia.
  - cbn [for_up]. unfold cpy at 1.
    destruct (rd_in src (i + so)) as [c Hc]; [lia|]. rewrite Hc.
    rewrite wr_some by lia.
    destruct (IH (i + 1) so d (upd dst (Z.to_nat (i + d)) c)) as (r & Hr & Hl & Hn);
      try (rewrite ?upd_length; lia).
    exists r. split; [exact Hr|]. split; [now rewrite Hl, upd_length|].
    intros j. rewrite Hn. clear Hr Hn.
    apply rd_some in Hc. destruct Hc as [_ Hc].
    destruct (Z.eq_dec (Z.of_nat j) (i + d)) as [E|E].
    + destruct (Z.leb_spec (i + 1 + d) (Z.of_nat j)); [lia|]. cbn [andb].
      destruct (Z.leb_spec (i + d) (Z.of_nat j)); [|lia].
      destruct (Z.ltb_spec (Z.of_nat j) (i + d + Z.of_nat (S n))); [|lia]. cbn [andb].
      replace (Z.to_nat (i + d)) with j by lia.
      rewrite nth_error_upd_eq by lia. rewrite <- Hc. f_equal; lia.
    + rewrite nth_error_upd_ne by lia.
      destruct (Z.leb_spec (i + 1 + d) (Z.of_nat j)), (Z.leb_spec (i + d) (Z.of_nat j));
      destruct (Z.ltb_spec (Z.of_nat j) (i + 1 + d + Z.of_nat n)),
               (Z.ltb_spec (Z.of_nat j) (i + d + Z.of_nat (S n))); cbn [andb]; auto; try lia.
Qed.

(** Descending shift loop inside one array:
    [for (i = hi; i > hi - n; i--) a[i] = a[i-1]]. *)
Lemma for_down_shift {C} n :
  forall i (a : list C),
  0 <= i - Z.of_nat n -> i < Z.of_nat (length a) ->
  exists r, for_down n i (fun k st => cpy st (k - 1) st k) a = Some r
    /\ length r = length a
    /\ forall j, nth_error r j =
         if ((i - Z.of_nat n <? Z.of_nat j) && (Z.of_nat j <=? i))
         then nth_error a (j - 1) else nth_error a j.
Proof.
  induction n as [|n IH]; intros i a H1 H2.
  - exists a. simpl. repeat split; auto. intros j.
    destruct (Z.ltb_spec (i - 0) (Z.of_nat j)); simpl; auto.
    destruct (Z.leb_spec (Z.of_nat j) i); auto. lia.
  - cbn [for_down]. unfold cpy at 1.
    destruct (rd_in a (i - 1)) as [c Hc]; [lia|]. rewrite Hc.
    rewrite wr_some by lia.
    destruct (IH (i - 1) (upd a (Z.to_nat i) c)) as (r & Hr & Hl & Hn);
      try (rewrite ?upd_length; lia).
    exists r. split; [exact Hr|]. split; [now rewrite Hl, upd_length|].
    intros j. rewrite Hn. clear Hr Hn.
    apply rd_some in Hc. destruct Hc as [_ Hc].
    destruct (Z.eq_dec (Z.of_nat j) i) as [E|E].
    + destruct (Z.leb_spec (Z.of_nat j) (i - 1)); [lia|]. rewrite andb_false_r.
      destruct (Z.ltb_spec (i - Z.of_nat (S n)) (Z.of_nat j)); [|lia].
      destruct (Z.leb_spec (Z.of_nat j) i); [|lia]. cbn [andb].
      replace (Z.to_nat i) with j by lia.
      rewrite nth_error_upd_eq by lia. rewrite <- Hc. f_equal; lia.
    + destruct (Z.ltb_spec (i - 1 - Z.of_nat n) (Z.of_nat j));
      destruct (Z.ltb_spec (i - Z.of_nat (S n)) (Z.of_nat j)); try lia; cbn [andb].
      * destruct (Z.leb_spec (Z.of_nat j) (i - 1)); destruct (Z.leb_spec (Z.of_nat j) i); try lia.
        -- rewrite nth_error_upd_ne by lia. reflexivity.
        -- rewrite nth_error_upd_ne by lia. reflexivity.
      * rewrite nth_error_upd_ne by lia. reflexivity.
Qed.

(** Ascending shift loop inside one array:
    [for (i = lo; i < lo + n; i++) a[i] = a[i+1]]. *)
Lemma for_up_shift {C} n :
  forall i (a : list C),
  0 <= i -> i + Z.of_nat n < Z.of_nat (length a) ->
  exists r, for_up n i (fun k st => cpy st (k + 1) st k) a = Some r
    /\ length r = length a
    /\ forall j, nth_error r j =
         if ((i <=? Z.of_nat j) && (Z.of_nat j <? i + Z.of_nat n))
         then nth_error a (j + 1) else nth_error a j.
Proof.
  induction n as [|n IH]; intros i a H1 H2.
  - exists a. simpl. repeat split; auto. intros j.
    destruct (Z.leb_spec i (Z.of_nat j)); simpl; auto.
    destruct (Z.ltb_spec (Z.of_nat j) (i + 0)); auto. lia.
  - cbn [for_up]. unfold cpy at 1.
    destruct (rd_in a (i + 1)) as [c Hc]; [lia|]. rewrite Hc.
    rewrite wr_some by lia.
    destruct (IH (i + 1) (upd a (Z.to_nat i) c)) as (r & Hr & Hl & Hn);
      try (rewrite ?upd_length; lia).
    exists r. split; [exact Hr|]. split; [now rewrite Hl, upd_length|].
    intros j. rewrite Hn. clear Hr Hn.
    apply rd_some in Hc. destruct Hc as [_ Hc].
    destruct (Z.eq_dec (Z.of_nat j) i) as [E|E].
    + destruct (Z.leb_spec (i + 1) (Z.of_nat j)); [lia|]. cbn [andb].
      destruct (Z.leb_spec i (Z.of_nat j)); [|lia].
      destruct (Z.ltb_spec (Z.of_nat j) (i + Z.of_nat (S n))); [|lia]. cbn [andb].
      replace (Z.to_nat i) with j by lia.
      rewrite nth_error_upd_eq by lia. rewrite <- Hc. f_equal; lia.
    + destruct (Z.leb_spec (i + 1) (Z.of_nat j)); destruct (Z.leb_spec i (Z.of_nat j)); try lia; cbn [andb].
      * destruct (Z.ltb_spec (Z.of_nat j) (i + 1 + Z.of_nat n));
        destruct (Z.ltb_spec (Z.of_nat j) (i + Z.of_nat (S n))); try lia;
        rewrite nth_error_upd_ne by lia; reflexivity.
      * rewrite nth_error_upd_ne by lia. reflexivity.
Qed.

Lemma nth_error_firstn {C} (l : list C) n i :
  nth_error (firstn n l) i = if (i <? n)%nat then nth_error l i else None.
Proof.
  revert n i; induction l as [|x l IH]; intros [|n] i; simpl.
  - destruct i; auto.
  - destruct i; simpl; auto. now destruct (_ <? _)%nat.
  - destruct i; auto.
  - destruct i; simpl; auto. rewrite IH.
    destruct (Nat.ltb_spec i n), (Nat.ltb_spec (S i) (S n)); auto; lia.
Qed.

Lemma nth_error_skipn {C} (l : list C) n i :
  nth_error (skipn n l) i = nth_error l (n + i).
Proof.
  revert l; induction n as [|n IH]; intros [|x l]; simpl; auto.
  now destruct i.
Qed.

Lemma nth_error_app {C} (a b : list C) i :
  nth_error (a ++ b) i = if (i <? length a)%nat then nth_error a i else nth_error b (i - length a).
Proof.
  destruct (Nat.ltb_spec i (length a)).
  - now apply nth_error_app1.
  - now apply nth_error_app2.
Qed.

Lemma nth_error_map' {A B} (f : A -> B) l i :
  nth_error (map f l) i = option_map f (nth_error l i).
Proof. revert i; induction l as [|x l IH]; intros [|i]; simpl; auto. Qed.
