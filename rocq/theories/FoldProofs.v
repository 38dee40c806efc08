(** * Folding agrees with execution: proofs. *)
From Coq Require Import ZArith List Bool Lia.
From Verif Require Import Base StringModel FloatModel ExprModel ValueModel FoldModel FoldSpec.
Import ListNotations.
Local Open Scope Z_scope.

Lemma c_str_nonul s : nonulb s = true -> c_str s = s.
Proof.
  induction s as [|c s IH]; [reflexivity|]. cbn. destruct (c =? 0); [discriminate|]. cbn. intro H. now rewrite IH.
Qed.

Lemma zlen_app {A} (l : list A) : zlen l = Z.of_nat (length l).
Proof. reflexivity. Qed.

Lemma strcmp_app_same a x y : nonulb a = true -> c_strcmp (a ++ x) (a ++ y) = c_strcmp x y.
Proof.
  induction a as [|c a IH]; [reflexivity|]. cbn. rewrite Z.eqb_refl.
  destruct (c =? 0); [discriminate|]. cbn. exact IH.
Qed.

Lemma same_eq a : forall b, same a b = true -> a = b.
Proof.
  induction a as [|x a IH]; destruct b as [|y b]; cbn; try discriminate; auto.
  intro H. apply andb_prop in H as [H1 H2]. apply Z.eqb_eq in H1. f_equal; auto.
Qed.

(** A quote added after both strings does not matter when they differ inside. *)
Lemma strcmp_differ a : forall b x y, nonulb a = true -> differ a b = true ->
  c_strcmp (a ++ x) (b ++ y) = c_strcmp a b.
Proof.
  induction a as [|c a IH]; destruct b as [|d b]; cbn; try discriminate.
  intros x y Hn Hd. destruct (c =? d) eqn:E; [|reflexivity].
  destruct (c =? 0); [discriminate|]. cbn in Hn. auto.
Qed.

Lemma strcmp_quoted a b : c_strcmp (quoted a) (quoted b) = c_strcmp (a ++ [34]) (b ++ [34]).
Proof. reflexivity. Qed.

Lemma strcmp_refl a : c_strcmp a a = 0.
Proof. induction a as [|c a IH]; [reflexivity|]. cbn. rewrite Z.eqb_refl. destruct (c =? 0); auto. Qed.

Lemma strcmp_eq0 a : forall b, nonulb a = true -> nonulb b = true -> c_strcmp a b = 0 -> a = b.
Proof.
  induction a as [|x a IH]; destruct b as [|y b]; cbn; auto.
  - destruct (y =? 0); cbn; [discriminate|]. intros; discriminate.
  - destruct (x =? 0); cbn; [discriminate|]. intros; discriminate.
  - destruct (x =? y) eqn:E.
    + apply Z.eqb_eq in E; subst y. destruct (x =? 0); cbn; [discriminate|].
      intros Ha Hb H. f_equal. auto.
    + destruct (x <? y); intros; discriminate.
Qed.

Lemma nonulb_app a b : nonulb (a ++ b) = nonulb a && nonulb b.
Proof. unfold nonulb. apply forallb_app. Qed.

Lemma strcmp_quoted_eq0 a b : nonulb a = true -> nonulb b = true ->
  (c_strcmp (quoted a) (quoted b) =? 0) = (c_strcmp a b =? 0).
Proof.
  intros Ha Hb. rewrite strcmp_quoted. apply eq_true_iff_eq. rewrite !Z.eqb_eq. split; intro H.
  - apply strcmp_eq0 in H; [|rewrite nonulb_app, ?Ha, ?Hb; reflexivity..].
    apply app_inv_tail in H. subst. apply strcmp_refl.
  - apply strcmp_eq0 in H; auto. subst. apply strcmp_refl.
Qed.

Lemma cmp_quoted c a b : nonulb a = true -> nonulb b = true ->
  is_eqne c || same a b || differ a b = true ->
  cmp_strings c (quoted a) (quoted b) = cmp_strings c a b.
Proof.
  intros Ha Hb H. destruct (is_eqne c) eqn:Ec.
  - unfold cmp_strings, cmpZ. destruct c; try discriminate; now rewrite strcmp_quoted_eq0.
  - cbn in H. apply orb_prop in H as [H|H].
    + apply same_eq in H. subst. unfold cmp_strings. now rewrite !strcmp_refl.
    + unfold cmp_strings. now rewrite strcmp_quoted, strcmp_differ.
Qed.

Section S.
Variable itext : Z -> list Z.
Variable ftext : f64 -> list Z.
Variable has_char : list Z -> Z -> bool.
Variable has_str : list Z -> list Z -> bool.
Variable h : heap.
Variable text : stk -> list Z.
Hypothesis Ht : same_text itext ftext text.

Notation foldk := (foldk itext ftext has_char has_str).
Notation run_op := (run_op has_char has_str h text).
Notation good := (good itext ftext).

Lemma kelem_inv k s : kelem h k s ->
  match k with
  | KInt z => s = Stk z P_INT
  | KFloat f => s = Stk (enc f) P_FLOAT
  | KBool b => s = Stk (Z.b2z b) P_BOOL
  | KStr t => s = Stk (val s) P_OBJECT /\ h (val s) = Some (OStr t)
  end.
Proof. destruct k; cbn; auto. destruct s as [v p]; cbn. intros [-> H]. auto. Qed.

Lemma text_side k s : kelem h k s -> text_of h text s = side_text itext ftext k.
Proof.
  destruct Ht as (H1 & H2 & H3).
  intro H. apply kelem_inv in H. unfold text_of, obj_of. destruct k.
  - subst s. cbn. apply H1.
  - subst s. cbn. apply H2.
  - subst s. cbn [props has]. change (has P_BOOL _) with false. cbn iota. rewrite H3. reflexivity.
  - destruct H as [E H]. rewrite E. cbn [props val]. change (has P_OBJECT _) with true. cbn iota. cbn. rewrite H. reflexivity.
Qed.

Lemma kres_bool b : kres h (KBool b) (push_bool b).
Proof. cbn. reflexivity. Qed.
Lemma tobool_b2z b : tobool (Z.b2z b) = Z.b2z b.
Proof. destruct b; reflexivity. Qed.

Lemma fold_int_inv z k : fold_int z = FoldK k -> k = KInt z /\ push_int z = Push (Stk z P_INT).
Proof. unfold fold_int, push_int. destruct (in64 z); [|discriminate]. intro H; inversion H; auto. Qed.

(** The operators on a pair with a string. *)
Lemma add_str k1 k2 s1 s2 :
  kelem h k1 s1 -> kelem h k2 s2 -> (exists t, k1 = KStr t \/ k2 = KStr t) ->
  op_add h text s1 s2 = NewStr (set_text (side_text itext ftext k1 ++ side_text itext ftext k2)).
Proof.
  intros H1 H2 [t Hs].
  rewrite <- (text_side _ _ H1), <- (text_side _ _ H2).
  apply kelem_inv in H1; apply kelem_inv in H2.
  destruct k1 as [?|?|?|u1], k2 as [?|?|?|u2];
    try (destruct Hs; discriminate);
    repeat match goal with
    | H : _ = Stk _ _ /\ h _ = _ |- _ => destruct H as [-> H]; cbn [val] in H
    | H : _ = Stk _ _ |- _ => subst
    end;
    unfold op_add, op_arith, call_meta2, obj_of; cbn [props val];
    repeat match goal with H : h _ = _ |- _ => rewrite H; clear H end; reflexivity.
Qed.

Ltac elems :=
  repeat match goal with
  | H : kelem h _ _ |- _ => apply kelem_inv in H
  end;
  repeat match goal with
  | H : ?s = Stk _ _ /\ h _ = _ |- _ => let E := fresh in destruct H as [E H]; rewrite E in *; clear E
  | H : _ = Stk _ _ |- _ => subst
  end; cbn [val] in *.

Lemma cmp_agree c k1 k2 k s1 s2 :
  good_cmp (is_eqne c) k1 k2 = true -> fold_cmp c k1 k2 = FoldK k ->
  kelem h k1 s1 -> kelem h k2 s2 -> kres h k (op_cmp h text c s1 s2).
Proof.
  intros Hg Hf H1 H2. destruct k1, k2; try discriminate; cbn in Hf; inversion Hf; subst; clear Hf; elems.
  - apply kres_bool.
  - change (kres h (KBool (cmpF c (rd f) (of_int z))) (push_bool (cmpF c (dec (enc f)) (of_int z)))). apply kres_bool.
  - change (kres h (KBool (cmpF c (rd f) (rd f0))) (push_bool (cmpF c (dec (enc f)) (dec (enc f0))))). apply kres_bool.
  - change (kres h (KBool (cmpZ c (Z.b2z b) (Z.b2z b0)))
      (push_bool (cmpZ c (tobool (Z.b2z b)) (tobool (Z.b2z b0))))). rewrite !tobool_b2z. apply kres_bool.
  - cbn in Hg. apply andb_prop in Hg as [Hg Hd]. apply andb_prop in Hg as [Ha Hb].
    unfold op_cmp, obj_of. cbn [props val].
    change (has P_OBJECT (Z.lor P_OBJECT P_OBJECT_IN_CONTAINER)) with true. cbn [negb].
    change (msk (prim P_OBJECT) (prim P_OBJECT) =? II) with false.
    change (msk (prim P_OBJECT) (prim P_OBJECT) =? BB) with false.
    change (msk (prim P_OBJECT) (prim P_OBJECT) =? IF) with false.
    change (msk (prim P_OBJECT) (prim P_OBJECT) =? FI) with false.
    change (msk (prim P_OBJECT) (prim P_OBJECT) =? FF) with false.
    change (has P_OBJECT P_TYPE) with false. cbn iota.
    rewrite H1, H2. rewrite cmp_quoted by auto. apply kres_bool.
Qed.

Lemma arith_agree m iop fop k1 k2 k s1 s2 :
  fold_arith iop fop k1 k2 = FoldK k ->
  kelem h k1 s1 -> kelem h k2 s2 -> kres h k (op_arith h text m iop fop s1 s2).
Proof.
  intros Hf H1 H2. destruct k1, k2; try discriminate; cbn in Hf; elems.
  - apply fold_int_inv in Hf as [-> Hp]. change (kres h (KInt (iop z z0)) (push_int (iop z z0))). rewrite Hp. reflexivity.
  - inversion Hf; subst. reflexivity.
  - inversion Hf; subst. reflexivity.
  - inversion Hf; subst. reflexivity.
Qed.

Lemma bits_agree o k1 k2 k s1 s2 :
  fold_bits o k1 k2 = FoldK k ->
  kelem h k1 s1 -> kelem h k2 s2 -> kres h k (op_bits h text o s1 s2).
Proof.
  intros Hf H1 H2. destruct k1, k2; try discriminate; cbn in Hf; elems.
  change (kres h k (push_oint (bopZ o z z0))). destruct (bopZ o z z0) as [r|]; [|discriminate].
  apply fold_int_inv in Hf as [-> Hp]. cbn. rewrite Hp. reflexivity.
Qed.

(** Division and modulus with the float operation as a parameter. *)
Definition op_dm (m : meta) (fop : f64 -> f64 -> f64) (a b : stk) : opres :=
  let k := msk (prim (props a)) (prim (props b)) in
  if k =? II then
    if val b =? 0 then Fail else push_float (fop (of_int (val a)) (of_int (val b)))
  else if k =? IF then
    if feqb (dec (val b)) (of_int 0) then Fail else push_float (fop (of_int (val a)) (dec (val b)))
  else if k =? FI then
    if val b =? 0 then Fail else push_float (fop (dec (val a)) (of_int (val b)))
  else if k =? FF then
    if feqb (dec (val b)) (of_int 0) then Fail else push_float (fop (dec (val a)) (dec (val b)))
  else call_meta2 h text m a b.

Lemma dm_agree m fop k1 k2 k s1 s2 :
  match k1, k2 with
  | KInt _, KFloat _ => false
  | _, KFloat f => negb (feqb (rd f) (of_int 0))
  | _, _ => true
  end = true ->
  fold_divmod fop k1 k2 = FoldK k ->
  kelem h k1 s1 -> kelem h k2 s2 -> kres h k (op_dm m fop s1 s2).
Proof.
  intros Hg Hf H1 H2. unfold fold_divmod in Hf.
  destruct k1 as [z1|f1|b1|t1], k2 as [z2|f2|b2|t2]; try discriminate Hg; cbn [raw2] in Hf; elems.
  all: try (match type of Hf with (if ?c then _ else _) = _ => destruct c eqn:E0; discriminate Hf end).
  all: try discriminate Hf.
  - destruct (z2 =? 0) eqn:E0; [discriminate Hf|]. injection Hf as <-.
    change (kres h (KFloat (fop (of_int z1) (of_int z2)))
      (if z2 =? 0 then Fail else push_float (fop (of_int z1) (of_int z2)))). rewrite E0. reflexivity.
  - destruct (z2 =? 0) eqn:E0; [discriminate Hf|]. injection Hf as <-.
    change (kres h (KFloat (fop (rd f1) (of_int z2)))
      (if z2 =? 0 then Fail else push_float (fop (dec (enc f1)) (of_int z2)))). rewrite E0. reflexivity.
  - destruct (enc f2 =? 0) eqn:E0; [discriminate Hf|]. injection Hf as <-.
    change (kres h (KFloat (fop (rd f1) (rd f2)))
      (if feqb (rd f2) (of_int 0) then Fail else push_float (fop (dec (enc f1)) (dec (enc f2))))).
    apply negb_true_iff in Hg. rewrite Hg. reflexivity.
Qed.

Theorem fold_agrees o k1 k2 k s1 s2 :
  good o k1 k2 = true -> foldk o k1 k2 = FoldK k ->
  kelem h k1 s1 -> kelem h k2 s2 -> kres h k (run_op o s1 s2).
Proof.
  intros Hg Hf H1 H2.
  destruct o.
  1,2: destruct k1, k2; try discriminate; cbn in Hf; inversion Hf; subst; elems;
    destruct b, b0; reflexivity.
  1-6: eapply cmp_agree; eauto.
  - (* ADD *)
    destruct k1 as [a|a|a|a], k2 as [b|b|b|b];
      try exact (arith_agree M_ADD Z.add fadd _ _ _ _ _ Hf H1 H2).
    all: cbn [good FoldSpec.good] in Hg; apply andb_prop in Hg as [Hg Hl]; apply andb_prop in Hg as [Ha Hb];
      cbn [foldk FoldModel.foldk] in Hf; unfold format2 in Hf;
      unfold ktext in *; rewrite !c_str_nonul in Hf by assumption; unfold zlen, max_str_buffer in Hf; rewrite Hl in Hf;
      inversion Hf; subst; cbn [run_op FoldModel.run_op];
      erewrite add_str; eauto; reflexivity.
  - exact (arith_agree M_SUB Z.sub fsub _ _ _ _ _ Hf H1 H2).
  - eapply bits_agree; eauto.
  - exact (arith_agree M_MUL Z.mul fmul _ _ _ _ _ Hf H1 H2).
  - eapply bits_agree; eauto.
  - exact (dm_agree M_DIV fdiv k1 k2 k s1 s2 Hg Hf H1 H2).
  - exact (dm_agree M_MOD fmod k1 k2 k s1 s2 Hg Hf H1 H2).
  - eapply bits_agree; eauto.
  - eapply bits_agree; eauto.
  - eapply bits_agree; eauto.
  - discriminate.
  - destruct k1, k2; try discriminate; cbn in Hf; inversion Hf; subst; elems; cbn; unfold op_in, obj_of; cbn [props val];
    change (has P_OBJECT P_OBJECT) with true; cbn iota.
    + rewrite H2. reflexivity.
    + rewrite H2, H1. reflexivity.
Qed.


(** ** A compile error is an error at run time too. *)
Lemma meta_fail m s1 s2 k1 k2 : m <> M_ADD ->
  kelem h k1 s1 -> kelem h k2 s2 -> no_value (call_meta2 h text m s1 s2).
Proof.
  intros Hm H1 H2. unfold call_meta2, obj_of. destruct k1, k2; elems; cbn [props val];
  repeat match goal with H : h _ = _ |- _ => rewrite H; clear H end; destruct m; try congruence; exact I.
Qed.

Lemma add_fail s1 s2 k1 k2 : (forall t, k1 <> KStr t) -> (forall t, k2 <> KStr t) ->
  kelem h k1 s1 -> kelem h k2 s2 -> no_value (call_meta2 h text M_ADD s1 s2).
Proof.
  intros N1 N2 H1 H2. destruct k1, k2; try (exfalso; eapply N1; reflexivity); try (exfalso; eapply N2; reflexivity);
  elems; exact I.
Qed.

Lemma arith_error m iop fop k1 k2 s1 s2 :
  (m = M_ADD -> (forall t, k1 <> KStr t) /\ (forall t, k2 <> KStr t)) ->
  fold_arith iop fop k1 k2 = FoldErr ->
  kelem h k1 s1 -> kelem h k2 s2 -> no_value (op_arith h text m iop fop s1 s2).
Proof.
  intros Hm Hf H1 H2.
  assert (Hc : no_value (call_meta2 h text m s1 s2)).
  { destruct m; try (apply (meta_fail _ s1 s2 k1 k2); [discriminate|exact H1|exact H2]). destruct (Hm eq_refl). exact (add_fail s1 s2 k1 k2 H H0 H1 H2). }
  destruct k1, k2; cbn in Hf; try discriminate;
    try (unfold fold_int in Hf; destruct (in64 _); discriminate); elems; exact Hc.
Qed.

Lemma dm_error m fop k1 k2 s1 s2 : m <> M_ADD ->
  fold_divmod fop k1 k2 = FoldErr ->
  kelem h k1 s1 -> kelem h k2 s2 -> no_value (op_dm m fop s1 s2).
Proof.
  intros Hm Hf H1 H2. pose proof (meta_fail m s1 s2 k1 k2 Hm H1 H2) as Hc.
  unfold fold_divmod in Hf.
  destruct k1 as [z1|f1|b1|t1], k2 as [z2|f2|b2|t2]; cbn [raw2] in Hf; elems; try exact Hc.
  - destruct (z2 =? 0) eqn:E0; [|discriminate Hf].
    change (no_value (if z2 =? 0 then Fail else push_float (fop (of_int z1) (of_int z2)))). rewrite E0. exact I.
  - destruct (enc f2 =? 0) eqn:E0; [|discriminate Hf]. apply Z.eqb_eq in E0.
    change (no_value (if feqb (dec (enc f2)) (of_int 0) then Fail else push_float (fop (of_int z1) (dec (enc f2))))).
    rewrite E0. exact I.
  - destruct (z2 =? 0) eqn:E0; [|discriminate Hf].
    change (no_value (if z2 =? 0 then Fail else push_float (fop (dec (enc f1)) (of_int z2)))). rewrite E0. exact I.
  - destruct (enc f2 =? 0) eqn:E0; [|discriminate Hf]. apply Z.eqb_eq in E0.
    change (no_value (if feqb (dec (enc f2)) (of_int 0) then Fail else push_float (fop (dec (enc f1)) (dec (enc f2))))).
    rewrite E0. exact I.
Qed.

Lemma cmp_error c k1 k2 s1 s2 : fold_cmp c k1 k2 = FoldErr ->
  kelem h k1 s1 -> kelem h k2 s2 -> no_value (op_cmp h text c s1 s2).
Proof.
  intros Hf H1 H2.
  assert (Hm : cmp_meta c <> M_ADD) by (destruct c; discriminate).
  pose proof (meta_fail (cmp_meta c) s1 s2 k1 k2 Hm H1 H2) as Hc.
  unfold op_cmp, obj_of. destruct k1, k2; cbn in Hf; try discriminate; elems; cbn [props val];
  repeat match goal with H : h _ = _ |- _ => rewrite H end; exact Hc.
Qed.

Lemma bits_error o k1 k2 s1 s2 : fold_bits o k1 k2 = FoldErr ->
  kelem h k1 s1 -> kelem h k2 s2 -> no_value (op_bits h text o s1 s2).
Proof.
  intros Hf H1 H2.
  assert (Hm : bop_meta o <> M_ADD) by (destruct o; discriminate).
  pose proof (meta_fail (bop_meta o) s1 s2 k1 k2 Hm H1 H2) as Hc.
  destruct k1, k2; cbn in Hf; elems; try exact Hc.
  destruct (bopZ o z z0); [unfold fold_int in Hf; destruct (in64 z1)|]; discriminate.
Qed.

Theorem fold_error o k1 k2 s1 s2 :
  o <> O_INST -> foldk o k1 k2 = FoldErr ->
  kelem h k1 s1 -> kelem h k2 s2 -> no_value (run_op o s1 s2).
Proof.
  intros Hi Hf H1 H2.
  destruct o; try congruence; cbn [foldk FoldModel.foldk] in Hf; cbn [run_op FoldModel.run_op].
  1,2: destruct k1, k2; try discriminate; elems; exact I.
  1-6: eapply cmp_error; eauto.
  - destruct k1, k2; try (unfold format2 in Hf; destruct (_ <? _); discriminate);
      (eapply arith_error; [|exact Hf|eassumption|eassumption]; intros _; split; discriminate).
  - eapply arith_error; [|exact Hf|eassumption|eassumption]; discriminate.
  - eapply bits_error; eauto.
  - eapply arith_error; [|exact Hf|eassumption|eassumption]; discriminate.
  - eapply bits_error; eauto.
  - apply (dm_error M_DIV fdiv k1 k2); auto; discriminate.
  - apply (dm_error M_MOD fmod k1 k2); auto; discriminate.
  - eapply bits_error; eauto.
  - eapply bits_error; eauto.
  - eapply bits_error; eauto.
  - destruct k1, k2; try discriminate; elems; unfold op_in, obj_of; cbn [props val];
      repeat match goal with H : h _ = _ |- _ => rewrite H end; exact I.
Qed.
End S.
