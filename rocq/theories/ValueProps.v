(** Properties of values, operators and assignments (C24-C30, C75-C79). *)
From Coq Require Import List ZArith Bool Lia.
From Verif Require Import FloatModel FloatProofs FloatBits FloatInt ValueModel ValueSpec ValueProofs.
Import ListNotations.
Open Scope Z_scope.

Definition no_heap : heap := fun _ => None.
Definition no_text : stk -> list Z := fun _ => [].

(** ** C24: typing and values of the arithmetic operators.
    [elem r v] is the stack element of value [v]; [r] says it comes from a constant. *)
Theorem C24_int_arith :
  forall h text o r1 r2 i j, w64 (aopZ o i j) ->
  pushes (aop_op h text o (elem r1 (VInt i)) (elem r2 (VInt j))) (VInt (aopZ o i j)).
Proof.
  intros h text o r1 r2 i j H.
  exact (arith_spec h text o r1 r2 (VInt i) (VInt j) (NI i) (NI j) eq_refl eq_refl H).
Qed.
Print Assumptions C24_int_arith.
Example C24_int_case : pushes (op_mul no_heap no_text (elem false (VInt 3)) (elem true (VInt (-5)))) (VInt (-15)).
Proof. reflexivity. Qed.

(** An integer result outside 64 bits is undefined behaviour of the C++ code: never silently wrapped here. *)
Theorem C24_int_overflow :
  forall h text o r1 r2 i j, ~ w64 (aopZ o i j) ->
  aop_op h text o (elem r1 (VInt i)) (elem r2 (VInt j)) = UBd.
Proof.
  intros h text o r1 r2 i j H.
  rewrite (arith_red h text o r1 r2 (VInt i) (VInt j) (NI i) (NI j) eq_refl eq_refl).
  unfold push_int. destruct (in64 (aopZ o i j)) eqn:E; [|reflexivity].
  apply in64_w64 in E. contradiction.
Qed.
Print Assumptions C24_int_overflow.
Example C24_overflow_case : ~ w64 (aopZ AAdd (2 ^ 63 - 1) 1).
Proof. unfold w64. simpl. lia. Qed.

Theorem C24_float_arith :
  forall h text o r1 r2 a b x y,
  num_of a = Some x -> num_of b = Some y -> ~ (exists i j, x = NI i /\ y = NI j) ->
  pushes_float (aop_op h text o (elem r1 a) (elem r2 b)) (aopF o (as_f x) (as_f y)).
Proof.
  intros h text o r1 r2 a b x y Ha Hb H. pose proof (arith_spec h text o r1 r2 a b x y Ha Hb) as S.
  destruct x, y; try exact S. exfalso. apply H. eauto.
Qed.
Print Assumptions C24_float_arith.
(** 1 + 0.5 = 1.5 *)
Example C24_float_case :
  pushes_float (op_add no_heap no_text (elem false (VInt 1)) (elem false (VFloat (enc (fdiv (of_int 1) (of_int 2))))))
    (fdiv (of_int 3) (of_int 2)).
Proof. vm_compute. reflexivity. Qed.

Theorem C24_div_is_float :
  forall h text r1 r2 a b x y,
  num_of a = Some x -> num_of b = Some y -> ~ is_zero y ->
  pushes_float (op_div h text (elem r1 a) (elem r2 b)) (fdiv (as_f x) (as_f y)).
Proof. intros. apply (div_spec h text r1 r2 a b x y); assumption. Qed.
Print Assumptions C24_div_is_float.
Example C24_div_case :
  pushes_float (op_div no_heap no_text (elem false (VInt 6)) (elem false (VInt 3))) (of_int 2).
Proof. vm_compute. reflexivity. Qed.

Theorem C24_other_types_fail :
  forall h text r1 r2 a b, num_of a = None \/ num_of b = None ->
  (forall o, aop_op h text o (elem r1 a) (elem r2 b) = Fail) /\
  op_div h text (elem r1 a) (elem r2 b) = Fail /\ op_mod h text (elem r1 a) (elem r2 b) = Fail.
Proof.
  intros h text r1 r2 a b H. split; [intros o; apply arith_nonnum, H|]. apply div_nonnum, H.
Qed.
Print Assumptions C24_other_types_fail.
Example C24_fail_case : op_add no_heap no_text (elem false (VBool true)) (elem false (VInt 1)) = Fail.
Proof. reflexivity. Qed.

(** Bitwise operators: only on two integers. *)
Lemma w64_sign z : w64 z <-> (Z.shiftr z 63 = 0 \/ Z.shiftr z 63 = -1).
Proof.
  rewrite Z.shiftr_div_pow2 by lia. unfold w64. split.
  - intros H. Z.div_mod_to_equations. lia.
  - intros H. Z.div_mod_to_equations. lia.
Qed.
Lemma w64_bits x y : w64 x -> w64 y -> w64 (Z.land x y) /\ w64 (Z.lor x y) /\ w64 (Z.lxor x y).
Proof.
  rewrite !w64_sign. rewrite Z.shiftr_land, Z.shiftr_lor, Z.shiftr_lxor.
  intros [->| ->] [->| ->]; simpl; tauto.
Qed.
Theorem C24_bitwise :
  forall h text r1 r2 x y, w64 x -> w64 y ->
  pushes (op_bits h text BAnd (elem r1 (VInt x)) (elem r2 (VInt y))) (VInt (Z.land x y)) /\
  pushes (op_bits h text BOr (elem r1 (VInt x)) (elem r2 (VInt y))) (VInt (Z.lor x y)) /\
  pushes (op_bits h text BXor (elem r1 (VInt x)) (elem r2 (VInt y))) (VInt (Z.lxor x y)) /\
  (0 <= y < 64 -> pushes (op_bits h text BShr (elem r1 (VInt x)) (elem r2 (VInt y))) (VInt (x / 2 ^ y))) /\
  (0 <= y < 64 -> 0 <= x -> x * 2 ^ y < 2 ^ 63 ->
   pushes (op_bits h text BShl (elem r1 (VInt x)) (elem r2 (VInt y))) (VInt (x * 2 ^ y))).
Proof.
  intros h text r1 r2 x y Hx Hy. destruct (w64_bits x y Hx Hy) as (A & B & C).
  pose proof (fun o => bits_spec h text o r1 r2 (VInt x) (VInt y)) as S. cbv beta iota in S.
  split; [|split; [|split; [|split]]].
  - unfold pushes. rewrite S. apply push_int_ok, A.
  - unfold pushes. rewrite S. apply push_int_ok, B.
  - unfold pushes. rewrite S. apply push_int_ok, C.
  - intros R. unfold pushes. rewrite S. unfold bopZ.
    assert (((0 <=? y) && (y <? 64)) = true) as -> by lia.
    rewrite Z.shiftr_div_pow2 by lia. apply push_int_ok.
    assert (0 < 2 ^ y) by (apply Z.pow_pos_nonneg; lia). unfold w64 in *.
    split; [apply Z.div_le_lower_bound; nia | apply Z.div_lt_upper_bound; nia].
  - intros R X M. unfold pushes. rewrite S. unfold bopZ.
    assert (0 < 2 ^ y) by (apply Z.pow_pos_nonneg; lia).
    assert (((0 <=? y) && (y <? 64) && (0 <=? x) && (x * 2 ^ y <? 2 ^ 64)) = true) as -> by lia.
    assert (wrap64 (x * 2 ^ y) = x * 2 ^ y) as ->.
    { unfold wrap64. rewrite Z.mod_small by nia. lia. }
    apply push_int_ok. unfold w64. nia.
Qed.
Print Assumptions C24_bitwise.
Example C24_bitwise_case : pushes (op_bits no_heap no_text BShl (elem false (VInt 3)) (elem false (VInt 4))) (VInt 48).
Proof. reflexivity. Qed.
Theorem C24_bitwise_other_types_fail :
  forall h text o r1 r2 a b, ~ (exists x y, a = VInt x /\ b = VInt y) ->
  op_bits h text o (elem r1 a) (elem r2 b) = Fail.
Proof.
  intros h text o r1 r2 a b H. pose proof (bits_spec h text o r1 r2 a b) as S.
  destruct a; try exact S. destruct b; try exact S. exfalso. apply H. eauto.
Qed.
Print Assumptions C24_bitwise_other_types_fail.
Example C24_bitwise_fail_case : op_bits no_heap no_text BAnd (elem false (VInt 3)) (elem false (VBool true)) = Fail.
Proof. reflexivity. Qed.

(** ** C25: division and modulus by zero *)
Theorem C25_zero_divisor :
  forall h text r1 r2 a b x y, num_of a = Some x -> num_of b = Some y ->
  (op_div h text (elem r1 a) (elem r2 b) = Fail <-> is_zero y) /\
  (op_mod h text (elem r1 a) (elem r2 b) = Fail <-> is_zero y).
Proof.
  intros h text r1 r2 a b x y Ha Hb. destruct (div_red h text r1 r2 a b x y Ha Hb) as [-> ->].
  rewrite <- zero_test_spec. destruct (zero_test y); split; split; try tauto; try discriminate.
Qed.
Print Assumptions C25_zero_divisor.
(** minus zero *)
Example C25_case : op_div no_heap no_text (elem false (VInt 1)) (elem false (VFloat (- 2 ^ 63))) = Fail
  /\ op_mod no_heap no_text (elem false (VInt 7)) (elem false (VInt 2)) <> Fail.
Proof. split; vm_compute; [reflexivity|discriminate]. Qed.

(** ** C26: [!=] negates [==].  All elements (objects included), unless the left operand is
    the type value of [undefined]. *)
Theorem C26_ne_negates_eq :
  forall h text a b x, ~ (has (props a) P_TYPE = true /\ val a = T_UNDEFINED) ->
  op_cmp h text CEq a b = Push x -> op_cmp h text CNe a b = Push (Stk (1 - val x) P_BOOL).
Proof. exact ne_of_eq. Qed.
Print Assumptions C26_ne_negates_eq.
Theorem C26_ne_negates_eq_values :
  forall h text r1 r2 a b t, a <> VType T_UNDEFINED ->
  pushes (op_cmp h text CEq (elem r1 a) (elem r2 b)) (VBool t) ->
  pushes (op_cmp h text CNe (elem r1 a) (elem r2 b)) (VBool (negb t)).
Proof.
  intros h text r1 r2 a b t Ha H. unfold pushes in *. rewrite (ne_of_eq h text _ _ (elem false (VBool t))).
  - destruct t; reflexivity.
  - intros [A B]. destruct a; try (destruct r1; discriminate). cbn in B. subst. apply Ha. reflexivity.
  - exact H.
Qed.
Print Assumptions C26_ne_negates_eq_values.
Example C26_case : pushes (op_cmp no_heap no_text CEq (elem false (VInt 3)) (elem false (VInt 4))) (VBool false)
  /\ pushes (op_cmp no_heap no_text CNe (elem false (VInt 3)) (elem false (VInt 4))) (VBool true).
Proof. split; reflexivity. Qed.
(** [typeof(undefined) != v] is true for every [v], also when [==] is true. *)
Theorem C26_type_undefined_refuted :
  forall h text r,
  pushes (op_cmp h text CEq (elem r (VType T_UNDEFINED)) (elem r (VType T_UNDEFINED))) (VBool true) /\
  pushes (op_cmp h text CNe (elem r (VType T_UNDEFINED)) (elem r (VType T_UNDEFINED))) (VBool true).
Proof. intros h text []; split; reflexivity. Qed.
Print Assumptions C26_type_undefined_refuted.

(** ** C27: symmetry and reflexivity of [==] *)
Theorem C27_symmetric :
  forall h text r1 r2 a b,
  ((exists t, a = VType t) <-> (exists t, b = VType t)) ->
  op_cmp h text CEq (elem r1 a) (elem r2 b) = op_cmp h text CEq (elem r2 b) (elem r1 a).
Proof.
  intros h text r1 r2 a b H. rewrite !eq_red. f_equal.
  destruct a as [| |x|w|x|t|f], b as [| |y|w'|y|t'|f'];
    try (exfalso; destruct H as [H1 H2];
         first [destruct (H1 (ex_intro _ _ eq_refl)); discriminate
               |destruct (H2 (ex_intro _ _ eq_refl)); discriminate]);
    clear H; cbn [eq_spec word_of elem val]; try (destruct r1, r2; reflexivity).
  - f_equal. apply Z.eqb_sym.
  - f_equal. apply feqb_sym.
  - f_equal. apply feqb_sym.
  - f_equal. apply feqb_sym.
  - f_equal. destruct x, y; reflexivity.
  - f_equal. apply Z.eqb_sym.
Qed.
Print Assumptions C27_symmetric.
Theorem C27_symmetric_strings :
  forall h text p q s t, h p = Some (OStr s) -> h q = Some (OStr t) ->
  op_cmp h text CEq (str p) (str q) = op_cmp h text CEq (str q) (str p).
Proof.
  intros h text p q s t Hp Hq. rewrite (str_cmp_red h text CEq p q s t Hp Hq), (str_cmp_red h text CEq q p t s Hq Hp).
  unfold cmp_strings, cmpZ. rewrite (strcmp_opp s t). f_equal. lia.
Qed.
Print Assumptions C27_symmetric_strings.
Theorem C27_reflexive :
  forall h text a,
  (forall f, a <> VFun f) -> (forall w, a = VFloat w -> dec w <> S754_nan) ->
  pushes (op_cmp h text CEq (elem false a) (elem false a)) (VBool true).
Proof.
  intros h text a HF HN. unfold pushes. rewrite eq_red.
  destruct a as [| |x|w|x|t|f]; cbn [eq_spec opres_of word_of elem val negb]; try reflexivity.
  - rewrite Z.eqb_refl. reflexivity.
  - rewrite feqb_refl by (apply HN; reflexivity). reflexivity.
  - destruct x; reflexivity.
  - rewrite Z.eqb_refl. reflexivity.
  - destruct (HF f); reflexivity.
Qed.
Print Assumptions C27_reflexive.
Theorem C27_reflexive_strings :
  forall h text p s, h p = Some (OStr s) -> pushes (op_cmp h text CEq (str p) (str p)) (VBool true).
Proof.
  intros h text p s Hp. unfold pushes. rewrite (str_cmp_red h text CEq p p s s Hp Hp).
  unfold cmp_strings, cmpZ. pose proof (strcmp_opp s s) as E.
  assert (c_strcmp s s = 0) as -> by lia. reflexivity.
Qed.
Print Assumptions C27_reflexive_strings.
Example C27_case : pushes (op_cmp no_heap no_text CEq (elem false (VInt 2)) (elem false (VFloat (enc (of_int 2))))) (VBool true)
  /\ pushes (op_cmp no_heap no_text CEq (elem false (VFloat (enc (of_int 2)))) (elem false (VInt 2))) (VBool true).
Proof. split; vm_compute; reflexivity. Qed.
(** A type on the left compares its number with the raw word of any value; on the right it is an error. *)
Theorem C27_asymmetric_refuted :
  forall h text t i,
  pushes (op_cmp h text CEq (elem false (VType t)) (elem false (VInt i))) (VBool (t =? i)) /\
  op_cmp h text CEq (elem false (VInt i)) (elem false (VType t)) = Fail.
Proof. intros. unfold pushes. rewrite !eq_red. split; reflexivity. Qed.
Print Assumptions C27_asymmetric_refuted.
(** Comparing a constant holding [undefined] or [null] with itself is an error. *)
Theorem C27_const_undefined_refuted :
  forall h text, op_cmp h text CEq (elem true VUndef) (elem true VUndef) = Fail /\
  op_cmp h text CEq (elem true VNull) (elem true VNull) = Fail.
Proof. intros. rewrite !eq_red. split; reflexivity. Qed.
Print Assumptions C27_const_undefined_refuted.
(** Comparing a function with itself is an error. *)
Theorem C27_function_refuted :
  forall h text r1 r2 f g, op_cmp h text CEq (elem r1 (VFun f)) (elem r2 (VFun g)) = Fail.
Proof. intros. rewrite !eq_red. reflexivity. Qed.
Print Assumptions C27_function_refuted.

(** ** C28: ordering *)
Definition holds (h : heap) (text : stk -> list Z) (c : cmp) (a b : stk) : Prop :=
  pushes (op_cmp h text c a b) (VBool true).

Lemma holds_bool h text c a b v : op_cmp h text c a b = push_bool v -> (holds h text c a b <-> v = true).
Proof.
  intros E. unfold holds, pushes. rewrite E. split.
  - intros H. destruct v; [reflexivity|discriminate].
  - intros ->. reflexivity.
Qed.
Lemma holds_int h text c r1 r2 x y :
  holds h text c (elem r1 (VInt x)) (elem r2 (VInt y)) <-> cmpZ c x y = true.
Proof. apply holds_bool. destruct r1, r2; reflexivity. Qed.
Lemma holds_str h text c p q s t : h p = Some (OStr s) -> h q = Some (OStr t) ->
  (holds h text c (str p) (str q) <-> cmpZ c (c_strcmp s t) 0 = true).
Proof. intros. apply holds_bool. rewrite (str_cmp_red h text c p q s t); auto. Qed.

Theorem C28_int_order :
  forall h text r1 r2 x y,
  (holds h text CLt (elem r1 (VInt x)) (elem r2 (VInt y)) <-> x < y) /\
  (holds h text CEq (elem r1 (VInt x)) (elem r2 (VInt y)) <-> x = y) /\
  (holds h text CGt (elem r1 (VInt x)) (elem r2 (VInt y)) <-> x > y) /\
  (holds h text CLe (elem r1 (VInt x)) (elem r2 (VInt y)) <-> x <= y) /\
  (holds h text CGe (elem r1 (VInt x)) (elem r2 (VInt y)) <-> x >= y).
Proof.
  intros. rewrite !holds_int. unfold cmpZ. rewrite !Z.ltb_lt, !Z.leb_le, Z.eqb_eq.
  repeat split; lia.
Qed.
Print Assumptions C28_int_order.
Example C28_int_case : holds no_heap no_text CLt (elem false (VInt (-3))) (elem false (VInt 2)).
Proof. reflexivity. Qed.

(** Strings without NUL bytes (bytes are compared unsigned): [s < t] is a strict total order. *)
Theorem C28_string_order :
  forall h text p q s t, h p = Some (OStr s) -> h q = Some (OStr t) -> cbytes s -> cbytes t ->
  let lt := holds h text CLt (str p) (str q) in
  let eq := holds h text CEq (str p) (str q) in
  let gt := holds h text CGt (str p) (str q) in
  (lt \/ eq \/ gt) /\ ~ (lt /\ eq) /\ ~ (lt /\ gt) /\ ~ (eq /\ gt) /\
  (holds h text CLe (str p) (str q) <-> lt \/ eq) /\
  (holds h text CGe (str p) (str q) <-> gt \/ eq) /\
  (eq <-> s = t) /\ (gt <-> holds h text CLt (str q) (str p)).
Proof.
  intros h text p q s t Hp Hq Hs Ht. cbv zeta.
  rewrite !(holds_str h text _ p q s t Hp Hq), (holds_str h text _ q p t s Hq Hp).
  unfold cmpZ. rewrite !Z.ltb_lt, !Z.leb_le, Z.eqb_eq, (strcmp_opp s t), strcmp_eq by assumption.
  rewrite <- (strcmp_eq s t) by assumption. repeat split; lia.
Qed.
Print Assumptions C28_string_order.
Theorem C28_string_transitive :
  forall h text p q r s t u,
  h p = Some (OStr s) -> h q = Some (OStr t) -> h r = Some (OStr u) ->
  cbytes s -> cbytes t -> cbytes u ->
  holds h text CLt (str p) (str q) -> holds h text CLt (str q) (str r) ->
  holds h text CLt (str p) (str r).
Proof.
  intros h text p q r s t u Hp Hq Hr Hs Ht Hu.
  rewrite (holds_str h text _ p q s t Hp Hq), (holds_str h text _ q r t u Hq Hr), (holds_str h text _ p r s u Hp Hr).
  unfold cmpZ. rewrite !Z.ltb_lt. pose proof (strcmp_range s t). pose proof (strcmp_range t u).
  intros. rewrite (strcmp_trans s t u) by (assumption || lia). lia.
Qed.
Print Assumptions C28_string_transitive.
(** The order is the dictionary order of the bytes. *)
Fixpoint dict_lt (s t : list Z) : Prop :=
  match s, t with
  | _, [] => False
  | [], _ :: _ => True
  | x :: s', y :: t' => x < y \/ (x = y /\ dict_lt s' t')
  end.
Theorem C28_string_lexicographic :
  forall h text p q s t, h p = Some (OStr s) -> h q = Some (OStr t) -> cbytes s -> cbytes t ->
  (holds h text CLt (str p) (str q) <-> dict_lt s t).
Proof.
  intros h text p q s t Hp Hq Hs Ht. rewrite (holds_str h text _ p q s t Hp Hq).
  unfold cmpZ. rewrite Z.ltb_lt. clear Hp Hq. revert t Ht.
  induction Hs as [|x s Hx Hs IH]; intros t Ht; destruct Ht as [|y t Hy Ht]; cbn [c_strcmp dict_lt].
  - lia.
  - destruct (Z.eqb_spec y 0); [lia|]. split; [tauto|lia].
  - destruct (Z.eqb_spec x 0); [lia|]. lia.
  - destruct (Z.eqb_spec x y) as [->|N].
    + destruct (Z.eqb_spec y 0); [lia|]. rewrite IH by assumption. split; [tauto|]. intros [?|[_ ?]]; [lia|assumption].
    + destruct (Z.ltb_spec x y); split; try lia.
Qed.
Print Assumptions C28_string_lexicographic.
Definition two_strings : heap :=
  fun a => if a =? 1 then Some (OStr [97; 98]) else if a =? 2 then Some (OStr [97; 200]) else None.
Example C28_string_case : holds two_strings no_text CLt (str 1) (str 2) /\ cbytes [97; 98] /\ cbytes [97; 200].
Proof. split; [reflexivity|]. split; repeat constructor; lia. Qed.
(** Beyond a NUL byte nothing is compared: different strings are then equal. *)
Theorem C28_nul_refuted :
  forall h text p q a s t, h p = Some (OStr (a ++ 0 :: s)) -> h q = Some (OStr (a ++ 0 :: t)) ->
  holds h text CEq (str p) (str q).
Proof.
  intros h text p q a s t Hp Hq. rewrite (holds_str h text _ p q _ _ Hp Hq).
  assert (E : forall l, c_strcmp (l ++ 0 :: s) (l ++ 0 :: t) = 0).
  { induction l as [|x l IH]; [reflexivity|]. cbn [app c_strcmp]. rewrite Z.eqb_refl, IH. destruct (x =? 0); reflexivity. }
  rewrite E. reflexivity.
Qed.
Print Assumptions C28_nul_refuted.

(** ** C78: floats that are not NaN are totally preordered *)
Lemma holds_float h text c r1 r2 a b :
  holds h text c (elem r1 (VFloat a)) (elem r2 (VFloat b)) <-> cmpF c (dec a) (dec b) = true.
Proof. apply holds_bool. destruct r1, r2; reflexivity. Qed.
Lemma cmpF_key c a b : w64 a -> w64 b -> dec a <> S754_nan -> dec b <> S754_nan ->
  cmpF c (dec a) (dec b) = cmpZ c (wkey a) (wkey b).
Proof.
  intros Ha Hb Na Nb. pose proof (compare_key a b Ha Hb Na Nb) as K.
  pose proof (compare_key b a Hb Ha Nb Na) as K'.
  destruct c; unfold cmpF, cmpZ, feqb, fltb, fleb, SFeqb, SFltb, SFleb; rewrite ?K, ?K';
    unfold Z.eqb, Z.ltb, Z.leb;
    try (rewrite (Z.compare_antisym (wkey a) (wkey b)); destruct (Z.compare_spec (wkey a) (wkey b)); simpl; reflexivity);
    try (destruct (Z.compare_spec (wkey a) (wkey b)); reflexivity).
  - destruct (Z.compare_spec (wkey a) (wkey b)) as [E|E|E]; symmetry; apply Z.eqb_neq || apply Z.eqb_eq; lia.
  - destruct (Z.compare_spec (wkey a) (wkey b)) as [E|E|E]; symmetry;
      (apply negb_true_iff, Z.eqb_neq; lia) || (apply negb_false_iff, Z.eqb_eq; lia).
Qed.
Theorem C78_float_order :
  forall h text r1 r2 a b, w64 a -> w64 b -> dec a <> S754_nan -> dec b <> S754_nan ->
  let lt := holds h text CLt (elem r1 (VFloat a)) (elem r2 (VFloat b)) in
  let eq := holds h text CEq (elem r1 (VFloat a)) (elem r2 (VFloat b)) in
  let gt := holds h text CGt (elem r1 (VFloat a)) (elem r2 (VFloat b)) in
  (lt \/ eq \/ gt) /\ ~ (lt /\ eq) /\ ~ (lt /\ gt) /\ ~ (eq /\ gt) /\
  (holds h text CLe (elem r1 (VFloat a)) (elem r2 (VFloat b)) <-> lt \/ eq) /\
  (holds h text CGe (elem r1 (VFloat a)) (elem r2 (VFloat b)) <-> gt \/ eq) /\
  (gt <-> holds h text CLt (elem r2 (VFloat b)) (elem r1 (VFloat a))).
Proof.
  intros h text r1 r2 a b Ha Hb Na Nb. cbv zeta. rewrite !holds_float, !cmpF_key by assumption.
  unfold cmpZ. rewrite !Z.ltb_lt, !Z.leb_le, Z.eqb_eq. repeat split; lia.
Qed.
Print Assumptions C78_float_order.
Theorem C78_float_transitive :
  forall h text r1 r2 r3 a b c, w64 a -> w64 b -> w64 c ->
  dec a <> S754_nan -> dec b <> S754_nan -> dec c <> S754_nan ->
  holds h text CLt (elem r1 (VFloat a)) (elem r2 (VFloat b)) ->
  holds h text CLt (elem r2 (VFloat b)) (elem r3 (VFloat c)) ->
  holds h text CLt (elem r1 (VFloat a)) (elem r3 (VFloat c)).
Proof.
  intros h text r1 r2 r3 a b c Ha Hb Hc Na Nb Nc. rewrite !holds_float, !cmpF_key by assumption.
  unfold cmpZ. rewrite !Z.ltb_lt. lia.
Qed.
Print Assumptions C78_float_transitive.
Example C78_case : holds no_heap no_text CLt (elem false (VFloat (enc (of_int (-2))))) (elem false (VFloat (enc (of_int 1)))).
Proof. vm_compute. reflexivity. Qed.
(** With a NaN only [!=] is true. *)
Theorem C78_nan :
  forall h text r1 r2 a b c, dec a = S754_nan \/ dec b = S754_nan ->
  (holds h text c (elem r1 (VFloat a)) (elem r2 (VFloat b)) <-> c = CNe).
Proof.
  intros h text r1 r2 a b c H. rewrite holds_float.
  assert (E : SFcompare (dec a) (dec b) = None /\ SFcompare (dec b) (dec a) = None).
  { destruct H as [->| ->]; [destruct (dec b)|destruct (dec a)]; split; reflexivity. }
  destruct E as [E E'].
  destruct c; unfold cmpF, feqb, fltb, fleb, SFeqb, SFltb, SFleb; rewrite ?E, ?E'; split; intros X; try reflexivity; discriminate.
Qed.
Print Assumptions C78_nan.
Example C78_nan_case : dec (2047 * 2 ^ 52 + 1) = S754_nan.
Proof. vm_compute. reflexivity. Qed.

(** ** C79: + and * on numbers do not depend on the order of the operands *)
Theorem C79_commutative :
  forall h text r1 r2 a b x y, num_of a = Some x -> num_of b = Some y ->
  op_add h text (elem r1 a) (elem r2 b) = op_add h text (elem r2 b) (elem r1 a) /\
  op_mul h text (elem r1 a) (elem r2 b) = op_mul h text (elem r2 b) (elem r1 a).
Proof.
  intros h text r1 r2 a b x y Ha Hb.
  pose proof (arith_red h text AAdd r1 r2 a b x y Ha Hb) as A1.
  pose proof (arith_red h text AAdd r2 r1 b a y x Hb Ha) as A2.
  pose proof (arith_red h text AMul r1 r2 a b x y Ha Hb) as M1.
  pose proof (arith_red h text AMul r2 r1 b a y x Hb Ha) as M2.
  cbn [aop_op] in *. rewrite A1, A2, M1, M2. cbn [aopZ aopF].
  rewrite (fadd_comm (as_f y)), (fmul_comm (as_f y)).
  destruct x, y; split; try reflexivity; f_equal; lia.
Qed.
Print Assumptions C79_commutative.
Example C79_case : op_add no_heap no_text (elem false (VInt 1)) (elem false (VFloat (enc (of_int 2))))
  = Push (elem false (VFloat (enc (of_int 3)))).
Proof. vm_compute. reflexivity. Qed.

(** ** C75: division and modulus of integers below 2^53 *)
Theorem C75_mod_exact :
  forall h text r1 r2 a b, small a -> small b -> b <> 0 ->
  exists f, pushes_float (op_mod h text (elem r1 (VInt a)) (elem r2 (VInt b))) f /\
  (f = of_int (Z.rem a b) \/ (Z.rem a b = 0 /\ exists s, f = S754_zero s)).
Proof.
  intros h text r1 r2 a b Ha Hb H0. eexists. split.
  - apply (div_spec h text r1 r2 (VInt a) (VInt b) (NI a) (NI b) eq_refl eq_refl H0).
  - cbn [as_f]. rewrite fmod_int by assumption. destruct (Z.eqb_spec (Z.rem a b) 0); eauto.
Qed.
Print Assumptions C75_mod_exact.
Theorem C75_div_exact :
  forall h text r1 r2 a b, small a -> small b -> b <> 0 -> (b | a) ->
  exists f, pushes_float (op_div h text (elem r1 (VInt a)) (elem r2 (VInt b))) f /\
  (f = of_int (a / b) \/ (a = 0 /\ exists s, f = S754_zero s)).
Proof.
  intros h text r1 r2 a b Ha Hb H0 HD. eexists. split.
  - apply (div_spec h text r1 r2 (VInt a) (VInt b) (NI a) (NI b) eq_refl eq_refl H0).
  - cbn [as_f]. rewrite fdiv_int by assumption. destruct (Z.eqb_spec a 0); eauto.
Qed.
Print Assumptions C75_div_exact.
(** and comparing the quotient with an integer gives the integer answer *)
Theorem C75_mod_compares :
  forall h text r a b k, small a -> small b -> b <> 0 -> small k ->
  exists e, op_mod h text (elem false (VInt a)) (elem false (VInt b)) = Push e /\
  (holds h text CEq e (elem r (VInt k)) <-> Z.rem a b = k).
Proof.
  intros h text r a b k Ha Hb H0 Hk.
  destruct (div_spec h text false false (VInt a) (VInt b) (NI a) (NI b) eq_refl eq_refl H0) as [_ E].
  cbn [as_f] in E. unfold pushes_float in E. eexists. split; [exact E|].
  rewrite fmod_int by assumption.
  set (f := if Z.rem a b =? 0 then S754_zero (a <? 0) else of_int (Z.rem a b)).
  assert (HR : small (Z.rem a b)) by (unfold small in *; pose proof (Z.rem_bound_abs a b H0); lia).
  assert (Vf : valid f).
  { unfold f. destruct (Z.rem a b =? 0); [reflexivity|apply of_int_valid, HR]. }
  change (holds h text CEq (elem false (VFloat (enc f))) (elem r (VInt k)) <-> Z.rem a b = k).
  assert (op_cmp h text CEq (elem false (VFloat (enc f))) (elem r (VInt k)) = push_bool (feqb (dec (enc f)) (of_int k))) as C
    by (rewrite eq_red; reflexivity).
  rewrite (holds_bool _ _ _ _ _ _ C), dec_enc by exact Vf.
  assert (G : feqb f (of_int k) = true <-> f = of_int k \/ ((exists s, f = S754_zero s) /\ k = 0)).
  { split.
    - intros F. destruct (feqb_zero (of_int k)) as [Z1 Z2].
      assert (K : forall s, of_int k = S754_zero s -> k = 0).
      { intros s Es. apply of_int_inj; [exact Hk|unfold small; lia|]. 
        destruct s; [|rewrite Es; reflexivity].
        exfalso. unfold small in Hk. destruct k as [|p|p]; [discriminate| |].
        - rewrite of_int_pos in Es by lia. discriminate.
        - rewrite of_int_neg in Es by lia. discriminate. }
      pose proof (of_int_valid k Hk) as Vk.
      rewrite <- (dec_enc f Vf), <- (dec_enc (of_int k) Vk) in F.
      pose proof (enc_w64 f Vf) as W1. pose proof (enc_w64 _ Vk) as W2.
      destruct (SFeqb f (of_int k)) eqn:F0 in |- *.
      + clear F0. unfold feqb, SFeqb in F.
        assert (N1 : dec (enc f) <> S754_nan). { intros N. rewrite N in F. discriminate. }
        assert (N2 : dec (enc (of_int k)) <> S754_nan).
        { intros N. rewrite N in F. destruct (dec (enc f)); discriminate. }
        rewrite compare_key in F by assumption.
        destruct (Z.compare_spec (wkey (enc f)) (wkey (enc (of_int k)))) as [KE| |]; try discriminate.
        destruct (Z.eq_dec (enc f) (enc (of_int k))) as [EE|EN].
        * left. rewrite <- (dec_enc f Vf), <- (dec_enc (of_int k) Vk), EE. reflexivity.
        * right. assert (wkey (enc f) = 0 /\ wkey (enc (of_int k)) = 0) as [Z0 Z0'].
          { unfold wkey, wsgn, wmag, w64 in *.
            destruct (enc f <? 0) eqn:?, (enc (of_int k) <? 0) eqn:?; lia. }
          assert (ZZ : forall w, w64 w -> wkey w = 0 -> exists s, dec w = S754_zero s).
          { intros w Hw Hz. unfold wkey, wsgn, wmag, w64 in *.
            assert (w = 0 \/ w = - 2 ^ 63) as [->| ->] by (destruct (w <? 0) eqn:?; lia).
            - exists false. reflexivity.
            - exists true. reflexivity. }
          destruct (ZZ _ W1 Z0) as [s Hs]. destruct (ZZ _ W2 Z0') as [s' Hs'].
          rewrite dec_enc in Hs by exact Vf. rewrite dec_enc in Hs' by exact Vk.
          split; [eauto|]. apply (K s' Hs').
      + unfold feqb in F. rewrite !dec_enc in F by assumption. congruence.
    - intros [->|[[s ->] ->]].
      + apply feqb_refl. intros N. pose proof (of_int_valid k Hk) as V. rewrite N in V.
        unfold small in Hk. destruct k as [|p|p]; [discriminate| |].
        * rewrite of_int_pos in N by lia. discriminate.
        * rewrite of_int_neg in N by lia. discriminate.
      + rewrite of_int_0. destruct s; reflexivity. }
  rewrite G. unfold f. destruct (Z.eqb_spec (Z.rem a b) 0) as [E0|E0].
  - rewrite E0. split.
    + intros [F|[_ F]]; [|lia]. symmetry. unfold small in Hk. destruct k as [|p|p]; [reflexivity| |].
      * rewrite of_int_pos in F by lia. discriminate.
      * rewrite of_int_neg in F by lia. discriminate.
    + intros <-. right. eauto.
  - split.
    + intros [F|[[s F] _]].
      * apply of_int_inj; assumption.
      * exfalso. unfold small in HR. destruct (Z.rem a b) as [|p|p]; [lia| |].
        -- rewrite of_int_pos in F by lia. discriminate.
        -- rewrite of_int_neg in F by lia. discriminate.
    + intros ->. left. reflexivity.
Qed.
Print Assumptions C75_mod_compares.
Example C75_case : op_mod no_heap no_text (elem false (VInt (-7))) (elem false (VInt 3)) = Push (elem false (VFloat (enc (of_int (-1)))))
  /\ small (-7) /\ small 3.
Proof. split; [vm_compute; reflexivity|split; unfold small; simpl; lia]. Qed.
(** Above 2^53 the remainder can be wrong: (2^53+1) % 2 is 0. *)
Theorem C75_big_mod_refuted :
  forall h text, op_mod h text (elem false (VInt (2 ^ 53 + 1))) (elem false (VInt 2)) = Push (elem false (VFloat 0)) /\
  Z.rem (2 ^ 53 + 1) 2 = 1.
Proof. intros. split; vm_compute; reflexivity. Qed.
Print Assumptions C75_big_mod_refuted.

(** ** C76: a string plus anything joins the texts *)
Theorem C76_string_plus_partial :
  forall h text p s r v, h p = Some (OStr s) -> ~ In 92 s -> ~ In 92 (text (elem r v)) ->
  op_add h text (str p) (elem r v) = NewStr (s ++ text (elem r v)) /\
  op_add h text (elem r v) (str p) = NewStr (text (elem r v) ++ s).
Proof.
  intros h text p s r v Hp Hs Hv.
  assert (O : obj_of h (str p) = Some (Some (OStr s))) by (unfold obj_of; cbn; rewrite Hp; reflexivity).
  assert (P : obj_of h (elem r v) = Some None) by (destruct v, r; reflexivity).
  assert (T1 : text_of h text (str p) = s) by (unfold text_of; rewrite O; reflexivity).
  assert (T2 : text_of h text (elem r v) = text (elem r v)) by (unfold text_of; rewrite P; reflexivity).
  assert (E1 : op_add h text (str p) (elem r v) = call_meta2 h text M_ADD (str p) (elem r v)) by (destruct v, r; reflexivity).
  assert (E2 : op_add h text (elem r v) (str p) = call_meta2 h text M_ADD (elem r v) (str p)) by (destruct v, r; reflexivity).
  rewrite E1, E2. unfold call_meta2. rewrite O, P, T1, T2.
  rewrite !set_text_no_backslash; [split; reflexivity| |]; intros F; apply in_app_or in F; tauto.
Qed.
Print Assumptions C76_string_plus_partial.
Lemma string_plus_string h text p q s t : h p = Some (OStr s) -> h q = Some (OStr t) ->
  op_add h text (str p) (str q) = NewStr (set_text (s ++ t)).
Proof.
  intros Hp Hq.
  assert (O : obj_of h (str p) = Some (Some (OStr s))) by (unfold obj_of; cbn; rewrite Hp; reflexivity).
  assert (O' : obj_of h (str q) = Some (Some (OStr t))) by (unfold obj_of; cbn; rewrite Hq; reflexivity).
  change (op_add h text (str p) (str q)) with (call_meta2 h text M_ADD (str p) (str q)).
  unfold call_meta2, text_of. rewrite O, O'. reflexivity.
Qed.
(** A backslash may only be the last character of the joined text. *)
Theorem C76_string_plus_string_partial :
  forall h text p q s t, h p = Some (OStr s) -> h q = Some (OStr t) ->
  (forall a e b, s ++ t <> a ++ 92 :: e :: b) ->
  op_add h text (str p) (str q) = NewStr (s ++ t).
Proof.
  intros h text p q s t Hp Hq N. rewrite (string_plus_string h text p q s t Hp Hq).
  rewrite set_text_plain by exact N. reflexivity.
Qed.
Print Assumptions C76_string_plus_string_partial.
(** With a backslash anywhere else the result is never the joined text: characters are lost. *)
Theorem C76_backslash_refuted :
  forall h text p q s t a e b, h p = Some (OStr s) -> h q = Some (OStr t) -> s ++ t = a ++ 92 :: e :: b ->
  exists r, op_add h text (str p) (str q) = NewStr r /\ (length r < length s + length t)%nat.
Proof.
  intros h text p q s t a e b Hp Hq E. exists (set_text (s ++ t)).
  split; [apply string_plus_string; assumption|]. rewrite <- app_length, E. apply set_text_escape.
Qed.
Print Assumptions C76_backslash_refuted.
Example C76_case : op_add two_strings no_text (str 1) (str 2) = NewStr [97; 98; 97; 200].
Proof. reflexivity. Qed.
(** "a\\" + "n" (the first text is a, backslash) is "a" and a line end. *)
Example C76_backslash_case :
  op_add (fun p => if p =? 1 then Some (OStr [97; 92]) else Some (OStr [110])) no_text (str 1) (str 2) = NewStr [97; 10].
Proof. reflexivity. Qed.

(** ** C29: [x op= e] is [x = x op e] *)
Theorem C29_compound :
  forall h text o r a b, ~ mixes_int_float o a b ->
  bin_as h text o (elem false a) (elem r b) = spelled_out h text o (elem false a) (elem r b).
Proof. exact compound_spec. Qed.
Print Assumptions C29_compound.
Example C29_case : bin_as no_heap no_text (OA AAdd) (elem false (VInt 3)) (elem false (VInt 4))
  = Asg (elem false (VInt 7)) (elem false (VInt 7)).
Proof. reflexivity. Qed.
(** int [op=] float reads the bits of the integer as a double, for + - and *. *)
Theorem C29_int_float_refuted :
  forall h text r i w,
  as_add h text (elem false (VInt i)) (elem r (VFloat w))
    = Asg (elem false (VFloat (enc (fadd (dec i) (dec w))))) (elem false (VFloat (enc (fadd (dec i) (dec w))))) /\
  spelled_out h text (OA AAdd) (elem false (VInt i)) (elem r (VFloat w))
    = Asg (elem false (VFloat (enc (fadd (of_int i) (dec w))))) (elem false (VFloat (enc (fadd (of_int i) (dec w))))).
Proof. intros h text [] i w; split; reflexivity. Qed.
Print Assumptions C29_int_float_refuted.
(** e.g. x=1; x+=1.5 leaves 1.5, not 2.5 *)
Example C29_int_float_example :
  let w := enc (fdiv (of_int 3) (of_int 2)) in
  as_add no_heap no_text (elem false (VInt 1)) (elem false (VFloat w)) = Asg (elem false (VFloat w)) (elem false (VFloat w)) /\
  spelled_out no_heap no_text (OA AAdd) (elem false (VInt 1)) (elem false (VFloat w))
   = Asg (elem false (VFloat (enc (fdiv (of_int 5) (of_int 2))))) (elem false (VFloat (enc (fdiv (of_int 5) (of_int 2))))).
Proof. split; vm_compute; reflexivity. Qed.
(** array [+=] array uses the left array as an object of another class. *)
Theorem C29_array_refuted :
  forall h text p q, h p = Some OArr -> h q = Some OArr ->
  as_add h text (Stk p P_OBJECT) (Stk q P_OBJECT) = AUB /\
  op_add h text (Stk p P_OBJECT) (Stk q P_OBJECT) = NewArr p q.
Proof.
  intros h text p q Hp Hq. unfold as_add, op_add, as_arith, op_arith. cbn [props val].
  change (msk (prim P_OBJECT) (prim P_OBJECT)) with 0.
  change (0 =? II) with false. change (0 =? IF) with false. change (0 =? FI) with false. change (0 =? FF) with false.
  cbv iota. unfold meta_set, call_meta2, obj_of. cbn [props val].
  change (has P_OBJECT (Z.lor P_OBJECT P_OBJECT_IN_CONTAINER)) with true. cbv iota. rewrite Hp, Hq. split; reflexivity.
Qed.
Print Assumptions C29_array_refuted.
Example C29_array_case : let h := fun _ : Z => Some OArr in h 1 = Some OArr /\ h 2 = Some OArr.
Proof. split; reflexivity. Qed.

(** ** C30: ++ and -- *)
Theorem C30_int :
  forall post d r z, d = 1 \/ d = -1 -> w64 (z + d) ->
  incdec post d (elem r (VInt z))
    = Asg (elem r (VInt (z + d))) (elem false (VInt (if post then z else z + d))).
Proof.
  intros post d r z _ H. unfold incdec. cbn [elem props val].
  assert (prim (P_INT + ro_bit r) =? P_INT = true) as -> by (destruct r; reflexivity).
  rewrite (proj2 (in64_w64 (z + d)) H). reflexivity.
Qed.
Print Assumptions C30_int.
Theorem C30_float :
  forall post d r w, d = 1 \/ d = -1 ->
  let f := if d =? 1 then fadd (dec w) (of_int 1) else fsub (dec w) (of_int 1) in
  incdec post d (elem r (VFloat w))
    = Asg (elem r (VFloat (enc f))) (elem false (VFloat (if post then w else enc f))).
Proof.
  intros post d r w Hd. unfold incdec. cbn [elem props val].
  assert (prim (P_FLOAT + ro_bit r) =? P_INT = false) as -> by (destruct r; reflexivity).
  assert (prim (P_FLOAT + ro_bit r) =? P_FLOAT = true) as -> by (destruct r; reflexivity).
  destruct Hd as [->| ->]; reflexivity.
Qed.
Print Assumptions C30_float.
Theorem C30_other_types_fail :
  forall post d r v, num_of v = None -> incdec post d (elem r v) = AFail.
Proof. intros post d r v H. destruct v; try discriminate; destruct r; reflexivity. Qed.
Print Assumptions C30_other_types_fail.
Example C30_case : incdec true 1 (elem false (VInt 41)) = Asg (elem false (VInt 42)) (elem false (VInt 41))
  /\ incdec false (-1) (elem false (VInt 41)) = Asg (elem false (VInt 40)) (elem false (VInt 40))
  /\ incdec true 1 (elem false VUndef) = AFail.
Proof. repeat split. Qed.

(** ** C77: constants *)
Theorem C77_store_rejected :
  forall h cst x src, has (props x) P_READ_ONLY = true -> store1 h cst x src = SFail.
Proof. intros h cst x src H. unfold store1. rewrite H. reflexivity. Qed.
Print Assumptions C77_store_rejected.
Theorem C77_store_const_is_const :
  forall h v x', store1 h true (elem false VUndef) (elem false v) = Stored x' -> x' = elem true v.
Proof. intros h v x' H. destruct v; injection H as <-; reflexivity. Qed.
Print Assumptions C77_store_const_is_const.
(** copying the value of a constant int, float or bool gives an ordinary variable *)
Theorem C77_copy_is_variable :
  forall h u v, (exists n, num_of v = Some n) \/ (exists b, v = VBool b) ->
  store1 h false (elem false u) (elem true v) = Stored (elem false v).
Proof. intros h u v [[n Hn]|[b ->]]; [destruct v; try discriminate|]; destruct u; reflexivity. Qed.
Print Assumptions C77_copy_is_variable.
Example C77_case : store1 no_heap false (elem true (VInt 1)) (elem false (VInt 2)) = SFail
  /\ store1 no_heap false (elem false VNull) (elem true (VInt 2)) = Stored (elem false (VInt 2)).
Proof. split; reflexivity. Qed.
(** Compound assignment and ++ do change a constant. *)
Theorem C77_const_modified_refuted :
  forall h text i j, w64 (i + 1) -> w64 (i + j) ->
  incdec true 1 (elem true (VInt i)) = Asg (elem true (VInt (i + 1))) (elem false (VInt i)) /\
  as_add h text (elem true (VInt i)) (elem false (VInt j)) = Asg (elem true (VInt (i + j))) (elem false (VInt (i + j))).
Proof.
  intros h text i j H1 H2. split.
  - apply (C30_int true 1 true i (or_introl eq_refl) H1).
  - change (as_add h text (elem true (VInt i)) (elem false (VInt j))) with (set_int (elem true (VInt i)) (i + j)).
    unfold set_int. rewrite (proj2 (in64_w64 _) H2). reflexivity.
Qed.
Print Assumptions C77_const_modified_refuted.
(** Copying a constant function or type makes the copy a constant; copying a constant
    [undefined] or [null] is an error. *)
Theorem C77_constness_copied_refuted :
  forall h u a v, 
  store1 h false (elem false u) (elem true (VFun a)) = Stored (elem true (VFun a)) /\
  store1 h false (elem true (VFun a)) (elem false v) = SFail /\
  store1 h false (elem false u) (elem true (VType a)) = Stored (elem true (VType a)) /\
  store1 h false (elem false u) (elem true VUndef) = SFail.
Proof. intros h u a v. repeat split; destruct u; reflexivity. Qed.
Print Assumptions C77_constness_copied_refuted.
