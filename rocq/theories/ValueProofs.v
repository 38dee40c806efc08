From Coq Require Import List ZArith Bool Lia.
From Verif Require Import FloatModel FloatProofs FloatBits FloatInt ValueModel ValueSpec.
Import ListNotations.
Open Scope Z_scope.

Lemma in64_w64 z : in64 z = true <-> w64 z.
Proof. unfold in64, w64. rewrite andb_true_iff, Z.leb_le, Z.ltb_lt. tauto. Qed.

Lemma push_int_ok z : w64 z -> push_int z = Push (elem false (VInt z)).
Proof. intros H. unfold push_int. rewrite (proj2 (in64_w64 z) H). reflexivity. Qed.

Lemma fadd_comm x y : fadd x y = fadd y x.
Proof.
  unfold fadd, SFadd. destruct x as [s|s| |s m e], y as [s'|s'| |s' m' e']; try reflexivity.
  - destruct s, s'; reflexivity.
  - destruct s, s'; reflexivity.
  - rewrite (Z.min_comm e' e). f_equal. apply Z.add_comm.
Qed.
Lemma fmul_comm x y : fmul x y = fmul y x.
Proof.
  unfold fmul, SFmul. destruct x as [s|s| |s m e], y as [s'|s'| |s' m' e']; try reflexivity;
    rewrite (xorb_comm s' s); try reflexivity.
  rewrite (Pos.mul_comm m' m), (Z.add_comm e' e). reflexivity.
Qed.

Definition aop_op (h : heap) (text : stk -> list Z) (o : aop) : stk -> stk -> opres :=
  match o with AAdd => op_add h text | ASub => op_sub h text | AMul => op_mul h text end.

Definition zero_test (n : num) : bool :=
  match n with NI z => z =? 0 | NF f => feqb f (of_int 0) end.

Lemma zero_test_spec n : zero_test n = true <-> is_zero n.
Proof. destruct n; simpl; [apply Z.eqb_eq | apply feqb_zero]. Qed.

Lemma arith_red h text o r1 r2 a b x y :
  num_of a = Some x -> num_of b = Some y ->
  aop_op h text o (elem r1 a) (elem r2 b) =
  match x, y with
  | NI i, NI j => push_int (aopZ o i j)
  | _, _ => push_float (aopF o (as_f x) (as_f y))
  end.
Proof.
  destruct a; intros Ha; try discriminate; injection Ha as <-;
    destruct b; intros Hb; try discriminate; injection Hb as <-;
    destruct o, r1, r2; reflexivity.
Qed.

Lemma arith_spec h text o r1 r2 a b x y :
  num_of a = Some x -> num_of b = Some y ->
  match x, y with
  | NI i, NI j => w64 (aopZ o i j) -> pushes (aop_op h text o (elem r1 a) (elem r2 b)) (VInt (aopZ o i j))
  | _, _ => pushes_float (aop_op h text o (elem r1 a) (elem r2 b)) (aopF o (as_f x) (as_f y))
  end.
Proof.
  intros Ha Hb. rewrite (arith_red h text o r1 r2 a b x y Ha Hb).
  destruct x, y; try reflexivity. intros H. apply push_int_ok, H.
Qed.

Lemma arith_nonnum h text o r1 r2 a b :
  num_of a = None \/ num_of b = None -> aop_op h text o (elem r1 a) (elem r2 b) = Fail.
Proof.
  intros H; destruct a, b; try (exfalso; simpl in H; destruct H; discriminate);
    clear H; destruct o, r1, r2; reflexivity.
Qed.

Lemma div_red h text r1 r2 a b x y :
  num_of a = Some x -> num_of b = Some y ->
  op_div h text (elem r1 a) (elem r2 b)
    = (if zero_test y then Fail else push_float (fdiv (as_f x) (as_f y))) /\
  op_mod h text (elem r1 a) (elem r2 b)
    = (if zero_test y then Fail else push_float (fmod (as_f x) (as_f y))).
Proof.
  destruct a; intros Ha; try discriminate; injection Ha as <-;
    destruct b; intros Hb; try discriminate; injection Hb as <-;
    destruct r1, r2; split; reflexivity.
Qed.

Lemma div_spec h text r1 r2 a b x y :
  num_of a = Some x -> num_of b = Some y -> ~ is_zero y ->
  pushes_float (op_div h text (elem r1 a) (elem r2 b)) (fdiv (as_f x) (as_f y)) /\
  pushes_float (op_mod h text (elem r1 a) (elem r2 b)) (fmod (as_f x) (as_f y)).
Proof.
  intros Ha Hb Hz. destruct (div_red h text r1 r2 a b x y Ha Hb) as [-> ->].
  rewrite <- zero_test_spec in Hz. apply not_true_is_false in Hz. rewrite Hz. split; reflexivity.
Qed.

Lemma div_zero h text r1 r2 a b x y :
  num_of a = Some x -> num_of b = Some y -> is_zero y ->
  op_div h text (elem r1 a) (elem r2 b) = Fail /\ op_mod h text (elem r1 a) (elem r2 b) = Fail.
Proof.
  intros Ha Hb Hz. destruct (div_red h text r1 r2 a b x y Ha Hb) as [-> ->].
  apply zero_test_spec in Hz. rewrite Hz. split; reflexivity.
Qed.

Lemma div_nonnum h text r1 r2 a b :
  num_of a = None \/ num_of b = None ->
  op_div h text (elem r1 a) (elem r2 b) = Fail /\ op_mod h text (elem r1 a) (elem r2 b) = Fail.
Proof.
  intros H; destruct a, b; try (exfalso; simpl in H; destruct H; discriminate);
    clear H; destruct r1, r2; split; reflexivity.
Qed.

Lemma bits_spec h text o r1 r2 a b :
  match a, b with
  | VInt x, VInt y =>
      op_bits h text o (elem r1 a) (elem r2 b) = push_oint (bopZ o x y)
  | _, _ => op_bits h text o (elem r1 a) (elem r2 b) = Fail
  end.
Proof.
  destruct a, b, r1, r2, o; reflexivity.
Qed.

(** *** Comparisons *)
Lemma b2z_negb b : Z.b2z (negb b) = 1 - Z.b2z b.
Proof. destruct b; reflexivity. Qed.

Lemma push_bool_inj b x : push_bool b = Push x -> x = Stk (Z.b2z b) P_BOOL.
Proof. unfold push_bool. congruence. Qed.

Lemma cmpZ_ne x y : cmpZ CNe x y = negb (cmpZ CEq x y).
Proof. reflexivity. Qed.

Ltac ne_done :=
  match goal with
  | H : push_bool _ = Push _ |- _ =>
      apply push_bool_inj in H; subst; cbn [val]; unfold push_bool; rewrite <- b2z_negb; reflexivity
  end.

Lemma meta2_nopush h text m a b x : m <> M_ADD -> call_meta2 h text m a b <> Push x.
Proof.
  intros Hm H. unfold call_meta2 in H.
  destruct (obj_of h a); [|discriminate]. destruct (obj_of h b); [|discriminate].
  destruct m; try congruence; destruct (has (props a) P_OBJECT); try discriminate;
    destruct (has (props b) P_OBJECT); discriminate.
Qed.

Lemma ne_of_eq h text a b x :
  ~ (has (props a) P_TYPE = true /\ val a = T_UNDEFINED) ->
  op_cmp h text CEq a b = Push x -> op_cmp h text CNe a b = Push (Stk (1 - val x) P_BOOL).
Proof.
  intros HX H. unfold op_cmp in *. cbn [is_eqne is_eq negb] in *.
  rewrite ?andb_true_r, ?andb_false_r in *.
  destruct (_ =? II); [ne_done|]. destruct (_ =? BB); [ne_done|].
  destruct (_ =? IF); [ne_done|]. destruct (_ =? FI); [ne_done|].
  destruct (_ =? FF); [ne_done|].
  destruct (has (props a) P_TYPE).
  - destruct (Z.eqb_spec (val a) T_UNDEFINED) as [E|E]; [exfalso; apply HX; auto|].
    cbn [andb] in *. ne_done.
  - destruct (obj_of h a) as [oa|]; [|discriminate].
    destruct (obj_of h b) as [ob|]; [|discriminate].
    assert (G : forall R,
      (if (props a =? P_UNDEFINED) || (props b =? P_UNDEFINED)
       then if (props a =? P_UNDEFINED) && (props b =? P_UNDEFINED) then push_bool true else push_bool false
       else if (props a =? P_NULL) || (props b =? P_NULL)
       then if (props a =? P_NULL) && (props b =? P_NULL) then push_bool true else push_bool false
       else call_meta2 h text (cmp_meta CEq) a b) = Push x ->
      (if (props a =? P_UNDEFINED) || (props b =? P_UNDEFINED)
       then if (props a =? P_UNDEFINED) && (props b =? P_UNDEFINED) then push_bool false else push_bool true
       else if (props a =? P_NULL) || (props b =? P_NULL)
       then if (props a =? P_NULL) && (props b =? P_NULL) then push_bool false else push_bool true
       else R) = Push (Stk (1 - val x) P_BOOL)).
    { intros R. destruct ((props a =? P_UNDEFINED) || (props b =? P_UNDEFINED)).
      - destruct ((props a =? P_UNDEFINED) && (props b =? P_UNDEFINED)); intros H'; ne_done.
      - destruct ((props a =? P_NULL) || (props b =? P_NULL)).
        + destruct ((props a =? P_NULL) && (props b =? P_NULL)); intros H'; ne_done.
        + intros H'. apply meta2_nopush in H'; [destruct H'|discriminate]. }
    destruct oa as [[s| | |t]|], ob as [[s'| | |t']|]; try (apply G, H). ne_done.
Qed.

(** [==] on values, for both const flags: [None] is a script error *)
Definition word_of (v : pv) : Z := val (elem false v).
Definition eq_spec (ra rb : bool) (a b : pv) : option bool :=
  match a, b with
  | VInt x, VInt y => Some (x =? y)
  | VBool x, VBool y => Some (Bool.eqb x y)
  | VInt x, VFloat w => Some (feqb (of_int x) (dec w))
  | VFloat w, VInt x => Some (feqb (dec w) (of_int x))
  | VFloat w, VFloat w' => Some (feqb (dec w) (dec w'))
  | VType t, _ => Some (t =? word_of b)
  | VUndef, _ => if ra then match b with
                            | VUndef => if rb then None else Some false
                            | VNull => if rb then None else Some false
                            | _ => None end
                 else match b with VUndef => Some (negb rb) | _ => Some false end
  | _, VUndef => if rb then match a with VNull => if ra then None else Some false | _ => None end
                 else Some false
  | VNull, _ => if ra then match b with VNull => if rb then None else Some false | _ => None end
                else match b with VNull => Some (negb rb) | _ => Some false end
  | _, VNull => if rb then None else Some false
  | _, _ => None
  end.
Definition opres_of (o : option bool) : opres :=
  match o with Some b => push_bool b | None => Fail end.

Lemma tobool_b2z b : tobool (Z.b2z b) = Z.b2z b.
Proof. destruct b; reflexivity. Qed.

Lemma eq_red h text ra rb a b :
  op_cmp h text CEq (elem ra a) (elem rb b) = opres_of (eq_spec ra rb a b).
Proof.
  destruct a as [| |x|w|x|t|f], b as [| |y|w'|y|t'|f'], ra, rb; try reflexivity;
    try (destruct x, y; reflexivity).
  all: try (unfold op_cmp; cbn [elem props val word_of opres_of eq_spec];
    change (has _ P_TYPE) with true; cbn [is_eqne is_eq];
    rewrite andb_true_r, andb_false_r;
    rewrite ?andb_false_r; reflexivity).
Qed.

(** *** Strings: bytes without the terminating NUL *)
Definition cbytes (l : list Z) : Prop := Forall (fun c => 0 < c < 256) l.

Lemma strcmp_eq a b : cbytes a -> cbytes b -> c_strcmp a b = 0 <-> a = b.
Proof.
  intros Ha. revert b. induction Ha as [|x a Hx Ha IH]; intros [|y b] Hb; cbn [c_strcmp].
  - tauto.
  - inversion Hb as [|? ? Hy Hb']; subst. destruct (Z.eqb_spec y 0); [lia|].
    split; [lia|discriminate].
  - destruct (Z.eqb_spec x 0); [lia|]. split; [lia|discriminate].
  - inversion Hb as [|? ? Hy Hb']; subst. destruct (Z.eqb_spec x y) as [->|N].
    + destruct (Z.eqb_spec y 0); [lia|]. rewrite IH by assumption.
      split; [intros ->; reflexivity | intros E; injection E as E; exact E].
    + destruct (x <? y); (split; [lia | intros E; injection E as E1 E2; contradiction]).
Qed.

Lemma strcmp_range a b : -1 <= c_strcmp a b <= 1.
Proof.
  revert b. induction a as [|x a IH]; intros [|y b]; cbn [c_strcmp]; try lia.
  - destruct (y =? 0); lia.
  - destruct (x =? 0); lia.
  - destruct (x =? y); [destruct (x =? 0); [lia|apply IH]|]. destruct (x <? y); lia.
Qed.

Lemma strcmp_opp a b : c_strcmp b a = - c_strcmp a b.
Proof.
  revert b. induction a as [|x a IH]; intros [|y b]; cbn [c_strcmp]; try reflexivity.
  - destruct (y =? 0); reflexivity.
  - destruct (x =? 0); reflexivity.
  - rewrite (Z.eqb_sym y x). destruct (Z.eqb_spec x y) as [->|N].
    + destruct (y =? 0); [reflexivity|apply IH].
    + destruct (Z.ltb_spec x y), (Z.ltb_spec y x); try lia.
Qed.

Lemma strcmp_trans a b c : cbytes a -> cbytes b -> cbytes c ->
  c_strcmp a b = -1 -> c_strcmp b c = -1 -> c_strcmp a c = -1.
Proof.
  intros Ha. revert b c. induction Ha as [|x a Hx Ha IH]; intros b c Hb Hc;
    destruct Hb as [|y b Hy Hb]; destruct Hc as [|z c Hz Hc]; cbn [c_strcmp];
    repeat match goal with |- context [?u =? 0] => destruct (Z.eqb_spec u 0); [lia|] end;
    try discriminate; try (intros; discriminate); try reflexivity; try tauto.
  destruct (Z.eqb_spec x y) as [->|N].
  - destruct (Z.eqb_spec y z) as [->|N'].
    + apply IH; assumption.
    + intros _. tauto.
  - destruct (Z.ltb_spec x y); [|discriminate]. intros _.
    destruct (Z.eqb_spec y z) as [->|N'].
    + intros _. destruct (Z.eqb_spec x z); [lia|]. destruct (Z.ltb_spec x z); [reflexivity|lia].
    + destruct (Z.ltb_spec y z); [|discriminate]. intros _.
      destruct (Z.eqb_spec x z); [lia|]. destruct (Z.ltb_spec x z); [reflexivity|lia].
Qed.

Lemma str_cmp_red h text c p q s t : h p = Some (OStr s) -> h q = Some (OStr t) ->
  op_cmp h text c (str p) (str q) = push_bool (cmp_strings c s t).
Proof.
  intros Hp Hq. unfold op_cmp, obj_of. cbn [str props val].
  change (has P_OBJECT (Z.lor P_OBJECT P_OBJECT_IN_CONTAINER)) with true.
  change (has P_OBJECT P_TYPE) with false.
  change (msk (prim P_OBJECT) (prim P_OBJECT)) with 0. cbv iota.
  rewrite Hp, Hq. reflexivity.
Qed.

(** *** Compound assignment *)
Inductive bin := OA (o : aop) | ODiv | OMod | OB (o : bop).
Definition bin_op (h : heap) (text : stk -> list Z) (o : bin) : stk -> stk -> opres :=
  match o with
  | OA a => aop_op h text a
  | ODiv => op_div h text
  | OMod => op_mod h text
  | OB b => op_bits h text b
  end.
Definition bin_as (h : heap) (text : stk -> list Z) (o : bin) : stk -> stk -> asres :=
  match o with
  | OA AAdd => as_add h text
  | OA ASub => as_sub h text
  | OA AMul => as_mul h text
  | ODiv => as_div h text
  | OMod => as_mod h text
  | OB b => as_bits h text b
  end.

(** What [x = x op e] does to the variable and leaves on the stack. *)
Definition spelled_out (h : heap) (text : stk -> list Z) (o : bin) (x e : stk) : asres :=
  match bin_op h text o x e with
  | Push r => match store1 h false x r with Stored x' => Asg x' r | SFail => AFail | _ => AUB end
  | Fail => AFail
  | _ => AUB
  end.

Definition mixes_int_float (o : bin) (a b : pv) : Prop :=
  match o, a, b with OA _, VInt _, VFloat _ => True | _, _, _ => False end.

Lemma set_int_ok h v z : 
  set_int (elem false (VInt v)) z
  = match push_int z with
    | Push r => match store1 h false (elem false (VInt v)) r with Stored x' => Asg x' r | SFail => AFail | _ => AUB end
    | Fail => AFail
    | _ => AUB
    end.
Proof. unfold set_int, push_int. destruct (in64 z); reflexivity. Qed.

Lemma compound_spec h text o r a b :
  ~ mixes_int_float o a b ->
  bin_as h text o (elem false a) (elem r b) = spelled_out h text o (elem false a) (elem r b).
Proof.
  intros HM. unfold spelled_out. destruct o as [o| | |o].
  - destruct (num_of a) as [x|] eqn:Ea.
    + destruct (num_of b) as [y|] eqn:Eb.
      * unfold bin_op. rewrite (arith_red h text o false r a b x y Ea Eb).
        destruct a; try discriminate; destruct b; try discriminate;
          injection Ea as <-; injection Eb as <-; try (exfalso; exact (HM I)).
        -- rewrite <- (set_int_ok h z). destruct o, r; reflexivity.
        -- destruct o, r; reflexivity.
        -- destruct o, r; reflexivity.
      * unfold bin_op. rewrite arith_nonnum by (right; exact Eb).
        clear HM. destruct a; try discriminate; destruct b; try discriminate; destruct o, r; reflexivity.
    + unfold bin_op. rewrite arith_nonnum by (left; exact Ea).
      clear HM. destruct a; try discriminate; destruct b, o, r; reflexivity.
  - destruct (num_of a) as [x|] eqn:Ea.
    + destruct (num_of b) as [y|] eqn:Eb.
      * unfold bin_op. destruct (div_red h text false r a b x y Ea Eb) as [-> _].
        assert (R : bin_as h text ODiv (elem false a) (elem r b)
          = if zero_test y then AFail else set_float (fdiv (as_f x) (as_f y))).
        { destruct a; try discriminate; destruct b; try discriminate;
            injection Ea as <-; injection Eb as <-; destruct r; reflexivity. }
        rewrite R. destruct (zero_test y); [reflexivity|].
        destruct a; try discriminate; reflexivity.
      * unfold bin_op. destruct (div_nonnum h text false r a b (or_intror Eb)) as [-> _].
        clear HM. destruct a; try discriminate; destruct b; try discriminate; destruct r; reflexivity.
    + unfold bin_op. destruct (div_nonnum h text false r a b (or_introl Ea)) as [-> _].
      clear HM. destruct a; try discriminate; destruct b, r; reflexivity.
  - destruct (num_of a) as [x|] eqn:Ea.
    + destruct (num_of b) as [y|] eqn:Eb.
      * unfold bin_op. destruct (div_red h text false r a b x y Ea Eb) as [_ ->].
        assert (R : bin_as h text OMod (elem false a) (elem r b)
          = if zero_test y then AFail else set_float (fmod (as_f x) (as_f y))).
        { destruct a; try discriminate; destruct b; try discriminate;
            injection Ea as <-; injection Eb as <-; destruct r; reflexivity. }
        rewrite R. destruct (zero_test y); [reflexivity|].
        destruct a; try discriminate; reflexivity.
      * unfold bin_op. destruct (div_nonnum h text false r a b (or_intror Eb)) as [_ ->].
        clear HM. destruct a; try discriminate; destruct b; try discriminate; destruct r; reflexivity.
    + unfold bin_op. destruct (div_nonnum h text false r a b (or_introl Ea)) as [_ ->].
      clear HM. destruct a; try discriminate; destruct b, r; reflexivity.
  - unfold bin_op, bin_as. pose proof (bits_spec h text o false r a b) as B.
    destruct a; destruct b; rewrite B; try (clear; destruct r; reflexivity).
    assert (R : as_bits h text o (elem false (VInt z)) (elem r (VInt z0))
      = match bopZ o z z0 with Some u => set_int (elem false (VInt z)) u | None => AUB end)
      by (destruct r; reflexivity).
    rewrite R. unfold push_oint. destruct (bopZ o z z0); [|reflexivity]. apply set_int_ok.
Qed.

(** ** Storing a text *)
Lemma set_text_two c e r : set_text (c :: e :: r) =
  if c =? 92 then (if e =? 92 then [92] else if e =? 110 then [10] else if e =? 116 then [9]
             else if e =? 34 then [34] else if e =? 39 then [39] else []) ++ set_text r
  else c :: set_text (e :: r).
Proof. reflexivity. Qed.
Lemma set_text_shrinks : forall n l, (length l <= n)%nat -> (length (set_text l) <= length l)%nat.
Proof.
  induction n as [|n IH]; intros l Hl.
  - destruct l; [reflexivity|cbn in Hl; lia].
  - destruct l as [|c [|e r]]; [reflexivity|reflexivity|]. rewrite set_text_two.
    pose proof (IH r ltac:(cbn in Hl; lia)). pose proof (IH (e :: r) ltac:(cbn in *; lia)).
    destruct (c =? 92).
    + rewrite app_length. repeat match goal with |- context [if ?x then _ else _] => destruct x end; cbn [length] in *; lia.
    + change (length (c :: set_text (e :: r))) with (S (length (set_text (e :: r)))). cbn [length] in *. lia.
Qed.
(** A backslash with a character behind it makes the text shorter. *)
Lemma set_text_escape : forall a e b, Nat.lt (length (set_text (a ++ 92 :: e :: b))) (length (a ++ 92 :: e :: b)).
Proof.
  intro a. remember (length a) as n eqn:Hn. assert (L : (length a <= n)%nat) by lia. clear Hn. revert a L.
  induction n as [|n IH]; intros a Hl e b.
  - destruct a; [|cbn in Hl; lia]. cbn [app set_text]. rewrite Z.eqb_refl, app_length.
    pose proof (set_text_shrinks _ b (le_n _)).
    repeat match goal with |- context [if ?x then _ else _] => destruct x end; cbn [length] in *; lia.
  - destruct a as [|c a]; [apply (IH [] ltac:(cbn; lia))|].
    destruct a as [|d a].
    + cbn [app]. change (set_text (c :: 92 :: e :: b)) with
        (if c =? 92 then [92] ++ set_text (e :: b) else c :: set_text (92 :: e :: b)).
      destruct (c =? 92).
      * pose proof (set_text_shrinks _ (e :: b) (le_n _)). cbn [app length] in *. lia.
      * pose proof (IH [] ltac:(cbn; lia) e b) as H. cbn [app] in H. cbn [length] in *. lia.
    + cbn [app]. change (set_text (c :: d :: a ++ 92 :: e :: b)) with
        (if c =? 92 then (if d =? 92 then [92] else if d =? 110 then [10] else if d =? 116 then [9]
             else if d =? 34 then [34] else if d =? 39 then [39] else []) ++ set_text (a ++ 92 :: e :: b)
         else c :: set_text ((d :: a) ++ 92 :: e :: b)).
      destruct (c =? 92).
      * pose proof (IH a ltac:(cbn in Hl; lia) e b). rewrite app_length.
        repeat match goal with |- context [if ?x then _ else _] => destruct x end; cbn [length] in *; lia.
      * pose proof (IH (d :: a) ltac:(cbn in Hl |- *; lia) e b). cbn [length app] in *. lia.
Qed.
Lemma set_text_plain : forall l, (forall a e b, l <> a ++ 92 :: e :: b) -> set_text l = l.
Proof.
  induction l as [|c l IH]; intros H; [reflexivity|]. destruct l as [|e r]; [reflexivity|].
  change (set_text (c :: e :: r)) with
    (if c =? 92 then (if e =? 92 then [92] else if e =? 110 then [10] else if e =? 116 then [9]
             else if e =? 34 then [34] else if e =? 39 then [39] else []) ++ set_text r else c :: set_text (e :: r)).
  destruct (Z.eqb_spec c 92) as [->|_]; [exfalso; exact (H [] e r eq_refl)|].
  f_equal. apply IH. intros a e' b E. apply (H (c :: a) e' b). cbn. now rewrite E.
Qed.
Lemma set_text_no_backslash l : ~ In 92 l -> set_text l = l.
Proof. intros H. apply set_text_plain. intros a e b ->. apply H. apply in_or_app. right. left. reflexivity. Qed.
