(** Lemmas about operator recognition. *)
From Coq Require Import List ZArith Bool Lia String.
From Verif Require Import Base StringModel LexModel LexSpec LexProofs.
Import ListNotations.
Local Open Scope Z_scope.

(** The tests as functions of the next three characters. *)
Definition ptest (o : operator) (a b d : Z -> bool) : bool :=
  match o with
  | OpTernaryIf => a 63
  | OpTernaryElse => a 58
  | OpAdd => (a 43) && negb (b 43)
  | OpSub => (a 45) && negb (b 45)
  | OpMul => (a 42) && negb (b 61)
  | OpDiv => (a 47) && negb (b 61)
  | OpMod => (a 37) && negb (b 61)
  | OpAssign => (a 61) && negb (b 61)
  | OpAssignAdd => (a 43) && (b 61)
  | OpAssignSub => (a 45) && (b 61)
  | OpAssignMul => (a 42) && (b 61)
  | OpAssignDiv => (a 47) && (b 61)
  | OpAssignMod => (a 37) && (b 61)
  | OpAssignXor => (a 94) && (b 61)
  | OpAssignAnd => (a 38) && (b 61)
  | OpAssignOr => (a 124) && (b 61)
  | OpAssignShl => (a 60) && (b 60) && (d 61)
  | OpAssignShr => (a 62) && (b 62) && (d 61)
  | OpXor => (a 94) && negb (b 61)
  | OpAnd => (a 38) && negb (b 38) && negb (b 61)
  | OpOr => (a 124) && negb (b 124) && negb (b 61)
  | OpShl => (a 60) && (b 60) && negb (d 61)
  | OpShr => (a 62) && (b 62) && negb (d 61)
  | OpLogicAnd => (a 38) && (b 38)
  | OpLogicOr => (a 124) && (b 124)
  | OpEqual => (a 61) && (b 61)
  | OpNotEqual => (a 33) && (b 61)
  | OpGt => (a 62) && negb (b 62)
  | OpLt => (a 60) && negb (b 60)
  | OpGte => (a 62) && (b 61)
  | OpLte => (a 60) && (b 61)
  | _ => false
  end.

Lemma eqb_pos : forall x p, Bool.eqb x p = if p then x else negb x.
Proof. destruct x, p; reflexivity. Qed.

Lemma op_test_ptest : forall o a t, In o punctuation ->
  op_test o (a :: t) = Ok (ptest o (Z.eqb a) (Z.eqb (hd0 t)) (Z.eqb (hd0 (tl t)))).
Proof.
  intros o a t H.
  assert (P1 : peek 1 (a :: t) = Ok (hd0 t)) by (rewrite peek_cons; apply peek0).
  assert (P2 : hd0 t <> 0 -> peek 2 (a :: t) = Ok (hd0 (tl t))).
  { intros N. rewrite peek_cons. destruct t as [|x t]; [cbn in N; congruence|]. rewrite peek_cons. apply peek0. }
  assert (P0 : peek 0 (a :: t) = Ok a) by reflexivity.
  cbn in H. repeat (destruct H as [<-|H]; [|]); try contradiction;
    cbn [op_test ptest all_of is isnt]; rewrite P0; cbn [rbind]; rewrite !eqb_pos;
    match goal with |- context [a =? ?c] => destruct (a =? c) end; cbn [andb negb]; try reflexivity;
    rewrite P1; cbn [rbind]; rewrite !eqb_pos;
    try match goal with |- context [hd0 t =? ?c] => destruct (Z.eqb_spec (hd0 t) c) as [E|E] end; cbn [andb negb]; try reflexivity;
    try (match goal with |- context [hd0 t =? ?c] => destruct (Z.eqb_spec (hd0 t) c) as [E'|E'] end; cbn [andb negb]; try reflexivity);
    try (rewrite P2 by lia; cbn [rbind]; rewrite !eqb_pos; destruct (hd0 (tl t) =? 61); reflexivity).
Qed.

(** [w] as a prefix, seen through three characters, each given by its equality test. *)
Definition pre3 (w : list Z) (a b d : Z -> bool) : bool :=
  match w with
  | [x] => a x
  | [x; y] => a x && b y
  | [x; y; z] => a x && b y && d z
  | _ => false
  end.
Definition longestb (a b d : Z -> bool) (w : list Z) : bool :=
  pre3 w a b d && forallb (fun w' => implb (pre3 w' a b d) (List.length w' <=? List.length w)%nat) language.
Definition check (a b d : Z -> bool) : bool :=
  match find (fun o => ptest o a b d) punctuation with
  | Some o => longestb a b d (spelling o)
  | None => forallb (fun o => negb (pre3 (spelling o) a b d)) punctuation
            || pre3 (bytes "++") a b d || pre3 (bytes "--") a b d
  end.

Definition relevant : list Z := [61; 43; 45; 42; 47; 37; 94; 38; 124; 60; 62; 63; 58; 33].
Definition agree (f g : Z -> bool) : Prop := forall c, In c relevant -> f c = g c.

Lemma agreeb : forall f g, agree f g -> forall c, existsb (Z.eqb c) relevant = true -> f c = g c.
Proof.
  intros f g A c E. apply A. apply existsb_exists in E. destruct E as (x & I & E). apply Z.eqb_eq in E. subst. exact I.
Qed.

Lemma ptest_ext : forall o a b d a' b' d', agree a a' -> agree b b' -> agree d d' -> In o punctuation ->
  ptest o a b d = ptest o a' b' d'.
Proof.
  intros o a b d a' b' d' A B D H. pose proof (agreeb _ _ A) as A1. pose proof (agreeb _ _ B) as B1.
  pose proof (agreeb _ _ D) as D1. cbn in H.
  repeat (destruct H as [<-|H];
    [cbn [ptest]; rewrite ?A1, ?B1, ?D1 by reflexivity; reflexivity|]).
  contradiction.
Qed.

Lemma pre3_ext : forall w a b d a' b' d', agree a a' -> agree b b' -> agree d d' ->
  forallb (fun c => existsb (Z.eqb c) relevant) w = true ->
  pre3 w a b d = pre3 w a' b' d'.
Proof.
  intros w a b d a' b' d' A B D H.
  destruct w as [|x [|y [|z [|u w]]]]; cbn [pre3]; try reflexivity; cbn [forallb] in H;
    rewrite ?andb_true_iff in H; repeat match goal with K : _ /\ _ |- _ => destruct K end;
    rewrite ?(agreeb _ _ A x), ?(agreeb _ _ B y), ?(agreeb _ _ D z) by assumption; reflexivity.
Qed.

Lemma find_ext : forall {A} (f g : A -> bool) l, (forall x, In x l -> f x = g x) -> find f l = find g l.
Proof.
  induction l as [|x l IH]; intros H; [reflexivity|]. cbn. rewrite (H x) by (left; auto).
  destruct (g x); [reflexivity|]. apply IH. intros. apply H. right. auto.
Qed.
Lemma forallb_ext_in : forall {A} (f g : A -> bool) l, (forall x, In x l -> f x = g x) -> forallb f l = forallb g l.
Proof.
  induction l as [|x l IH]; intros H; [reflexivity|]. cbn. rewrite (H x) by (left; auto).
  f_equal. apply IH. intros. apply H. right. auto.
Qed.

Definition words_ok := forallb (fun w => forallb (fun c => existsb (Z.eqb c) relevant) w) language.
Lemma words_ok_true : words_ok = true. Proof. reflexivity. Qed.
Lemma language_chars : forall w, In w language -> forallb (fun c => existsb (Z.eqb c) relevant) w = true.
Proof. intros w H. pose proof words_ok_true as K. unfold words_ok in K. rewrite forallb_forall in K. apply K, H. Qed.
Lemma spelling_in : forall o, In o punctuation -> In (spelling o) language.
Proof. intros. unfold language. right. right. apply in_map. auto. Qed.

Lemma check_ext : forall a b d a' b' d', agree a a' -> agree b b' -> agree d d' -> check a b d = check a' b' d'.
Proof.
  intros a b d a' b' d' A B D. unfold check.
  rewrite (find_ext _ (fun o => ptest o a' b' d')) by (intros; apply ptest_ext; auto).
  destruct (find _ punctuation) as [o|] eqn:F.
  - apply find_some in F. destruct F as [I _]. unfold longestb. f_equal.
    + apply pre3_ext; auto. apply language_chars, spelling_in, I.
    + apply forallb_ext_in. intros w Hw. rewrite (pre3_ext w a b d a' b' d') by (auto; apply language_chars; auto). reflexivity.
  - rewrite (pre3_ext _ a b d a' b' d'), (pre3_ext (bytes "--") a b d a' b' d') by (auto; reflexivity).
    f_equal. f_equal. apply forallb_ext_in. intros o Ho.
    rewrite (pre3_ext _ a b d a' b' d') by (auto; apply language_chars, spelling_in; auto). reflexivity.
Qed.

(** 0 stands for any character that occurs in no operator. *)
Definition cls (c : Z) : Z := if existsb (Z.eqb c) relevant then c else 0.
Lemma cls_agree : forall c, agree (Z.eqb c) (Z.eqb (cls c)).
Proof.
  intros c x I. unfold cls. destruct (existsb (Z.eqb c) relevant) eqn:E; [reflexivity|].
  destruct (Z.eqb_spec c x) as [->|N].
  - assert (existsb (Z.eqb x) relevant = true) by (apply existsb_exists; exists x; split; [auto | apply Z.eqb_refl]). congruence.
  - symmetry. apply Z.eqb_neq. intros <-. cbn in I. repeat (destruct I as [I|I]; [discriminate|]). contradiction.
Qed.
Lemma cls_in : forall c, In (cls c) (0 :: relevant).
Proof.
  intros. unfold cls. destruct (existsb (Z.eqb c) relevant) eqn:E; [|left; reflexivity].
  apply existsb_exists in E. destruct E as (x & I & E). apply Z.eqb_eq in E. subst. right. exact I.
Qed.
Definition all_checks : bool :=
  forallb (fun a => forallb (fun b => forallb (fun d => check (Z.eqb a) (Z.eqb b) (Z.eqb d)) [0; 61]) (0 :: relevant)) (0 :: relevant).
Lemma all_checks_ok : all_checks = true.
Proof. vm_compute. reflexivity. Qed.

(** The third character only matters when it is '='. *)
Definition agree61 (f g : Z -> bool) : Prop := f 61 = g 61.
Lemma check_ext_d : forall a b d d', d 61 = d' 61 -> check a b d = check a b d'.
Proof.
  intros a b d d' D. unfold check.
  assert (P : forall w, In w language -> pre3 w a b d = pre3 w a b d').
  { intros w Hw. unfold language in Hw. cbn in Hw.
    repeat (destruct Hw as [<-|Hw]; [cbn [pre3]; rewrite ?D; reflexivity|]). contradiction. }
  rewrite (find_ext _ (fun o => ptest o a b d')).
  2:{ intros o Ho. cbn in Ho. repeat (destruct Ho as [<-|Ho]; [cbn [ptest]; rewrite ?D; reflexivity|]). contradiction. }
  destruct (find _ punctuation) as [o|] eqn:F.
  - apply find_some in F. destruct F as [I _]. unfold longestb. rewrite (P _ (spelling_in _ I)). f_equal.
    apply forallb_ext_in. intros w Hw. rewrite (P w Hw). reflexivity.
  - rewrite (P (bytes "++")), (P (bytes "--")) by (cbn; auto). f_equal. f_equal.
    apply forallb_ext_in. intros o Ho. rewrite (P _ (spelling_in _ Ho)). reflexivity.
Qed.

Lemma check_all : forall a b d, check (Z.eqb a) (Z.eqb b) (Z.eqb d) = true.
Proof.
  intros.
  rewrite (check_ext _ _ (Z.eqb d) (Z.eqb (cls a)) (Z.eqb (cls b)) (Z.eqb d)) by (try apply cls_agree; intros ? ?; reflexivity).
  pose proof all_checks_ok as K. unfold all_checks in K. rewrite forallb_forall in K.
  specialize (K _ (cls_in a)). rewrite forallb_forall in K. specialize (K _ (cls_in b)). rewrite forallb_forall in K.
  destruct (Z.eq_dec d 61) as [->|N]; [apply K; cbn; auto|].
  rewrite (check_ext_d _ _ (Z.eqb d) (Z.eqb 0)); [apply K; cbn; auto|].
  apply Z.eqb_neq. exact N.
Qed.

(** ** From the tests to statements about texts *)
Lemma starts_spec : forall w t, is_prefix w t = true <-> starts_with t w.
Proof.
  induction w as [|x w IH]; intros t; cbn [is_prefix].
  - split; [intros _; exists t; reflexivity | reflexivity].
  - destruct t as [|y t].
    + split; [discriminate | intros [r E]; discriminate].
    + rewrite andb_true_iff, Z.eqb_eq, IH. split.
      * intros [-> [r ->]]. exists r. reflexivity.
      * intros [r E]. inversion E; subst. split; [reflexivity | exists r; reflexivity].
Qed.

Lemma pre3_starts : forall w a t, (List.length w <= 3)%nat -> w <> [] -> ~ In 0 w ->
  pre3 w (Z.eqb a) (Z.eqb (hd0 t)) (Z.eqb (hd0 (tl t))) = true <-> starts_with (a :: t) w.
Proof.
  intros w a t L NE NZ. rewrite <- starts_spec.
  destruct w as [|x [|y [|z [|u w]]]]; cbn in L; try lia; try congruence; cbn [pre3 is_prefix].
  - rewrite (Z.eqb_sym x). destruct (a =? x); reflexivity.
  - rewrite (Z.eqb_sym x). assert (y <> 0) by (intros ->; apply NZ; right; left; reflexivity).
    destruct (a =? x); cbn [andb]; [|reflexivity].
    destruct t as [|b t]; unfold hd0; cbn [hd is_prefix].
    + destruct (Z.eqb_spec 0 y); [congruence | reflexivity].
    + rewrite (Z.eqb_sym y). destruct (b =? y); reflexivity.
  - rewrite (Z.eqb_sym x). assert (y <> 0) by (intros ->; apply NZ; right; left; reflexivity).
    assert (z <> 0) by (intros ->; apply NZ; right; right; left; reflexivity).
    destruct (a =? x); cbn [andb]; [|reflexivity].
    destruct t as [|b t]; cbn [tl is_prefix]; unfold hd0; cbn [hd].
    + destruct (Z.eqb_spec 0 y); [congruence | reflexivity].
    + rewrite (Z.eqb_sym y). destruct (b =? y); cbn [andb]; [|reflexivity].
      destruct t as [|d t]; unfold hd0; cbn [hd is_prefix].
      * destruct (Z.eqb_spec 0 z); [congruence | reflexivity].
      * rewrite (Z.eqb_sym z). destruct (d =? z); reflexivity.
Qed.
Lemma language_short : forall w, In w language -> (List.length w <= 3)%nat /\ w <> [] /\ ~ In 0 w.
Proof.
  intros w H. assert (K : forallb (fun w => (List.length w <=? 3)%nat && negb (match w with [] => true | _ => false end)
      && negb (existsb (Z.eqb 0) w)) language = true) by reflexivity.
  rewrite forallb_forall in K. specialize (K w H). rewrite !andb_true_iff in K. destruct K as [[K1 K2] K3].
  split; [apply Nat.leb_le; exact K1|]. split; [intros ->; discriminate|].
  intros I. assert (existsb (Z.eqb 0) w = true) by (apply existsb_exists; exists 0; auto). rewrite H0 in K3. discriminate.
Qed.
Lemma pre3_language : forall w a t, In w language ->
  pre3 w (Z.eqb a) (Z.eqb (hd0 t)) (Z.eqb (hd0 (tl t))) = true <-> starts_with (a :: t) w.
Proof. intros w a t H. destruct (language_short w H) as (A & B & C). apply pre3_starts; auto. Qed.

Lemma first_of_find : forall l a t rest, (forall o, In o l -> In o punctuation) ->
  first_of (map (fun o => (o, op_test o)) l ++ rest) (a :: t) =
  match find (fun o => ptest o (Z.eqb a) (Z.eqb (hd0 t)) (Z.eqb (hd0 (tl t)))) l with
  | Some o => Ok (Some o)
  | None => first_of rest (a :: t)
  end.
Proof.
  induction l as [|o l IH]; intros a t rest H; [reflexivity|].
  cbn [map app first_of find]. rewrite op_test_ptest by (apply H; left; auto). cbn [rbind].
  destruct (ptest o _ _ _); [reflexivity|]. apply IH. intros. apply H. right. auto.
Qed.

Definition blank_after (c : Z) : Prop := c = 32 \/ c = 13 \/ c = 10.
Definition word_at (w t : list Z) : Prop := exists c r, t = w ++ c :: r /\ blank_after c.

Lemma word_op_spec : forall w t, ~ In 0 w -> exists b, word_op w t = Ok b /\ (b = true <-> word_at w t).
Proof.
  intros w t NZ. unfold word_op, starts. destruct (is_prefix w t) eqn:P.
  - apply starts_spec in P. destruct P as [r ->].
    assert (E : peek (List.length w) (w ++ r) = Ok (hd0 r)).
    { unfold peek. rewrite app_length. replace (List.length w <=? List.length w + List.length r)%nat with true by (symmetry; apply Nat.leb_le; lia).
      rewrite app_nth2 by lia. rewrite Nat.sub_diag. destruct r; reflexivity. }
    rewrite E. cbn [rbind]. eexists. split; [reflexivity|].
    rewrite !orb_true_iff, !Z.eqb_eq. split.
    + intros H. destruct r as [|c r]; [cbn in H; destruct H as [[H|H]|H]; discriminate|].
      exists c, r. split; [reflexivity|]. unfold blank_after. cbn in H. tauto.
    + intros (c & r' & E' & B). apply app_inv_head in E'. subst r. cbn. unfold blank_after in B. tauto.
  - exists false. split; [reflexivity|]. split; [discriminate|]. intros (c & r & E & _).
    assert (is_prefix w t = true) by (apply starts_spec; exists (c :: r); exact E). congruence.
Qed.

Lemma in_no_zero : ~ In 0 (bytes "in") /\ ~ In 0 (bytes "instanceof") /\ ~ In 0 (bytes "typeof").
Proof. repeat split; cbn; intros K; repeat (destruct K as [K|K]; [discriminate|]); exact K. Qed.

Lemma is_operator_spec : forall t, exists r, is_operator t = Ok r /\
  match r with
  | Some OpInstanceof => word_at (bytes "instanceof") t
  | Some OpIn => word_at (bytes "in") t
  | Some o => In o punctuation /\ longest_in language t (spelling o)
  | None =>
      (forall o, In o punctuation -> starts_with t (spelling o) ->
         starts_with t (bytes "++") \/ starts_with t (bytes "--")) /\
      ~ word_at (bytes "instanceof") t /\ ~ word_at (bytes "in") t
  end.
Proof.
  intros t. destruct t as [|a t].
  - exists None. split; [reflexivity|]. split.
    + intros o Ho [r E]. exfalso. destruct (language_short _ (spelling_in _ Ho)) as (_ & NE & _).
      destruct (spelling o); [congruence | discriminate].
    + split; intros (c & r & E & _); discriminate.
  - unfold is_operator.
    change (map (fun o => (o, op_test o)) operators) with
      (map (fun o => (o, op_test o)) punctuation ++ [(OpInstanceof, word_op (bytes "instanceof")); (OpIn, word_op (bytes "in"))]).
    rewrite first_of_find by auto. pose proof (check_all a (hd0 t) (hd0 (tl t))) as C. unfold check in C.
    destruct (find _ punctuation) as [o|] eqn:F.
    + exists (Some o). split; [reflexivity|]. apply find_some in F. destruct F as [I _].
      assert (L : longest_in language (a :: t) (spelling o)).
      { unfold longestb in C. apply andb_true_iff in C. destruct C as [C1 C2]. rewrite forallb_forall in C2.
        split; [apply spelling_in, I|]. split; [apply pre3_language; [apply spelling_in, I | exact C1]|].
        intros w' Hw S. specialize (C2 w' Hw). apply pre3_language in S; [|exact Hw]. rewrite S in C2.
        cbn [implb] in C2. apply Nat.leb_le. exact C2. }
      destruct o; try (split; assumption); cbn in I; repeat (destruct I as [I|I]; [discriminate|]); contradiction.
    + destruct (word_op_spec (bytes "instanceof") (a :: t) (proj1 (proj2 in_no_zero))) as (b1 & E1 & W1).
      destruct (word_op_spec (bytes "in") (a :: t) (proj1 in_no_zero)) as (b2 & E2 & W2).
      cbn [first_of]. rewrite E1, E2. cbn [rbind].
      destruct b1; [exists (Some OpInstanceof); split; [reflexivity | tauto]|].
      destruct b2; [exists (Some OpIn); split; [reflexivity | tauto]|].
      exists None. split; [reflexivity|]. split; [|split; [intros K; apply W1 in K | intros K; apply W2 in K]; discriminate].
      intros o Ho S. rewrite !orb_true_iff in C. destruct C as [[C|C]|C].
      * rewrite forallb_forall in C. specialize (C o Ho). apply pre3_language in S; [|apply spelling_in, Ho].
        rewrite S in C. discriminate.
      * left. apply pre3_language; [left; reflexivity | exact C].
      * right. apply pre3_language; [right; left; reflexivity | exact C].
Qed.

(** ** The end of a token *)
Lemma post_spec : forall t, exists r, is_post_operation t = Ok r /\
  (r <> None <-> exists a b s, t = a :: b :: s /\ (a = 43 \/ a = 45) /\ (b = 43 \/ b = 45)).
Proof.
  intros t. destruct t as [|a t].
  - exists None. split; [reflexivity|]. split; [congruence | intros (a & b & s & E & _); discriminate].
  - unfold is_post_operation, first_of, is_dec, is_inc, is_dec_inc_invalid. rewrite !two_cons. cbn [rbind].
    assert (Q : forall b, (b = 43 \/ b = 45) -> hd0 t = b -> exists s, t = b :: s).
    { intros b B E. destruct t; cbn in E; [subst b; destruct B; discriminate|]. subst. eauto. }
    destruct (Z.eqb_spec a 45) as [->|N45].
    + destruct (Z.eqb_spec (hd0 t) 45) as [E|E].
      { exists (Some PostDec). split; [reflexivity|]. split; [|congruence]. intros _.
        destruct (Q 45 (or_intror eq_refl) E) as [s ->]. exists 45, 45, s. auto. }
      destruct (Z.eqb_spec (hd0 t) 43) as [E1|E1].
      { exists (Some PostInvalid). split; [reflexivity|]. split; [|congruence]. intros _.
        destruct (Q 43 (or_introl eq_refl) E1) as [s ->]. exists 45, 43, s. auto. }
      exists None. split; [reflexivity|]. split; [congruence|]. intros (a & b & s & X & A & B). inversion X; subst.
      cbn in E, E1. destruct B; congruence.
    + destruct (Z.eqb_spec a 43) as [->|N43].
      * destruct (Z.eqb_spec (hd0 t) 43) as [E|E].
        { exists (Some PostInc). split; [reflexivity|]. split; [|congruence]. intros _.
          destruct (Q 43 (or_introl eq_refl) E) as [s ->]. exists 43, 43, s. auto. }
        destruct (Z.eqb_spec (hd0 t) 45) as [E1|E1].
        { exists (Some PostInvalid). split; [reflexivity|]. split; [|congruence]. intros _.
          destruct (Q 45 (or_intror eq_refl) E1) as [s ->]. exists 43, 45, s. auto. }
        exists None. split; [reflexivity|]. split; [congruence|]. intros (a & b & s & X & A & B). inversion X; subst.
        cbn in E, E1. destruct B; congruence.
      * exists None. split; [reflexivity|]. split; [congruence|]. intros (x & b & s & X & A & B). inversion X; subst.
        destruct A; congruence.
Qed.

Definition op_first : list Z := bytes ":?=+-*/%^&|<>".

Lemma op_first_spec : forall o, In o punctuation -> o = OpNotEqual \/ exists c r, spelling o = c :: r /\ In c op_first.
Proof.
  intros o H. cbn in H.
  repeat (destruct H as [<-|H]; [first [left; reflexivity | right; cbv -[In]; do 2 eexists; split; [reflexivity | cbn; tauto]]|]).
  contradiction.
Qed.
Lemma op_single : forall c, In c op_first -> exists o, In o punctuation /\ spelling o = [c].
Proof.
  intros c H. cbn in H.
  assert (K : forall o, In o punctuation -> spelling o = [c] -> exists o, In o punctuation /\ spelling o = [c]) by eauto.
  repeat (destruct H as [<-|H];
    [first [apply (K OpTernaryElse); [cbn; tauto | reflexivity] | apply (K OpTernaryIf); [cbn; tauto | reflexivity]
     | apply (K OpAssign); [cbn; tauto | reflexivity] | apply (K OpAdd); [cbn; tauto | reflexivity]
     | apply (K OpSub); [cbn; tauto | reflexivity] | apply (K OpMul); [cbn; tauto | reflexivity]
     | apply (K OpDiv); [cbn; tauto | reflexivity] | apply (K OpMod); [cbn; tauto | reflexivity]
     | apply (K OpXor); [cbn; tauto | reflexivity] | apply (K OpAnd); [cbn; tauto | reflexivity]
     | apply (K OpOr); [cbn; tauto | reflexivity] | apply (K OpLt); [cbn; tauto | reflexivity]
     | apply (K OpGt); [cbn; tauto | reflexivity] ]|]).
  contradiction.
Qed.
