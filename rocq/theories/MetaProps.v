(** Operators, properties and setters of script classes: what holds and what does not. *)
From Coq Require Import List ZArith Bool String Lia.
From Verif Require Import MetaModel MetaSpec MetaProofs.
Import ListNotations.
Open Scope string_scope.
Open Scope list_scope.
Open Scope Z_scope.
Local Arguments Nat.ltb : simpl never.

(** *** A small world for the cases.
    Class 21 [Num] has a variable [n], operators [_lt] and [_sub] on it, a property [size] with
    getter and setter, a property [next] whose getter counts [n] up, and [_set], [_postinc]. *)
Definition num (z : Z) : stk := Stk z P_INT.
Definition set_fld (u : usr) (o : Z) (x : string) (v : stk) : usr :=
  Usr (hp u) (fun o' y => if (o' =? o) && String.eqb y x then v else fld u o' y) (txt u) (out u).
Definition say (u : usr) (v : stk) : usr := Usr (hp u) (fld u) (txt u) (out u ++ [v]).
Definition junk : usr -> option Z -> list stk -> nat -> stk := fun _ _ _ _ => Stk 77 P_INT.
Definition the (o : option Z) : Z := match o with Some z => z | None => 0 end.
Definition amount (u : usr) (v : stk) : Z := if props v =? P_INT then val v else val (fld u (val v) "n").

Definition f_sub : fn := Fn 2 2 true (fun u _ a => (u, RRet
  [num (amount u (nth 0 a undef) - amount u (nth 1 a undef))])) junk.
Definition f_lt : fn := Fn 2 3 true (fun u _ a => (u, RRet
  [Stk (Z.b2z (amount u (nth 0 a undef) <? amount u (nth 1 a undef))) P_BOOL])) junk.
Definition f_get : fn := Fn 0 0 false (fun u t _ => (u, RRet [fld u (the t) "n"])) junk.
Definition f_get_var : fn := Fn 0 1 false (fun u t _ => (u, RRet [fld u (the t) "n"])) junk.
Definition f_next : fn := Fn 0 0 false (fun u t _ =>
  let u' := set_fld u (the t) "n" (num (val (fld u (the t) "n") + 1)) in (u', RRet [fld u' (the t) "n"])) junk.
Definition f_set : fn := Fn 1 1 false (fun u t a =>
  if props (nth 0 a undef) =? P_INT then (say (set_fld u (the t) "n" (nth 0 a undef)) (nth 0 a undef), REnd)
  else (u, RErr)) junk.
Definition f_inc : fn := Fn 0 2 false (fun u t _ =>
  (set_fld u (the t) "n" (num (val (fld u (the t) "n") + 1)), RRet [fld u (the t) "n"])) junk.

Definition num_decls : list decl :=
  [DMethod (MOp M_SUB) f_sub; DMethod (MOp M_LT) f_lt; DMethod (MAsg ASet) f_set; DMethod (MAsg AAdd) f_set;
   DMethod (MInc PostInc) f_inc;
   DProp "size" [(PGet, f_get); (PAsg ASet, f_set); (PAsg AAdd, f_set)];
   DProp "next" [(PGet, f_next)]; DProp "slow" [(PGet, f_get_var)]; DProp "sink" [(PAsg ASet, f_set)]].
Definition some_prop (o : option prop) : prop := match o with Some p => p | None => no_prop end.
Definition some_cls (o : option cls) : cls := match o with Some c => c | None => new_class None end.
Definition Num : cls := some_cls (class_of None num_decls).
Definition Sub : cls := some_cls (class_of (Some Num) [DProp "more" [(PGet, f_get)]]).
Definition Bare : cls := some_cls (class_of None []).
Definition ct0 : types := fun t => if t =? 21 then Some Num else if t =? 22 then Some Sub
  else if t =? 23 then Some Bare else None.
Definition heap0 : heap := fun o => if o =? 100 then Some (OOther 21) else if o =? 101 then Some (OOther 21)
  else if o =? 102 then Some (OOther 22) else if o =? 103 then Some (OOther 23) else None.
Definition usr0 : usr := Usr heap0 (fun o _ => num (o - 95)) (fun _ => []) [].
(** local variables: [100], [101], [102], [103], and one element above them *)
Definition vm0 : vm := Vm (fun k => if Nat.ltb k 4 then Stk (100 + Z.of_nat k) P_OBJECT else num 9) 5 undef undef usr0 false.

Example C129_world : class_of None num_decls = Some Num /\
  class_of (Some Num) [DProp "more" [(PGet, f_get)]] = Some Sub /\ class_of None [] = Some Bare.
Proof. repeat split; reflexivity. Qed.

(** ** C129: reading a property gives what its getter returned *)
Theorem C129_getter_value_partial : forall s o p g u v,
  err s = false -> p_get p = Some g -> f_params g = O -> f_locals g = O ->
  Gives g (us s) (Some o) [] u v -> Result s (sp s) u v (get_prop s o p).
Proof. intros s o p g u v E P Z L G. now apply (get_prop_gives s o p g u v). Qed.

(** With one variable in the getter the property reads undefined, whatever is returned. *)
Theorem C129_getter_with_variable_refuted : forall s o p g u v,
  err s = false -> p_get p = Some g -> f_params g = O -> (0 < f_locals g)%nat ->
  Gives g (us s) (Some o) [] u v -> Result s (sp s) u undef (get_prop s o p).
Proof. intros s o p g u v E P Z L G. now apply (get_prop_gives s o p g u v). Qed.

(** The value of [p += v] is what the getter then returns, under the same condition. *)
Theorem C129_compound_value_partial : forall ct s o p f g mp u1 u2 r a v,
  err s = false -> (1 <= sp s)%nat -> p_set p a = Some f -> p_get p = Some g ->
  f_params f = 1%nat -> f_params g = O -> f_locals g = O ->
  props (mem s (sp s - 1)%nat) <> P_UNDEFINED -> has (props (mem s (sp s - 1)%nat)) P_NULL = false ->
  Gives f (us s) (Some o) [mem s (sp s - 1)%nat] u1 r -> Gives g u1 (Some o) [] u2 v ->
  Result s (sp s - 1) u2 v (set_op ct s a (TProp o p) mp).
Proof.
  intros ct s o p f g mp u1 u2 r a v E Sp F G Pf Pg L NU NN Gf Gg.
  unfold set_op. rewrite NN. destruct (Z.eqb_spec (props (mem s (sp s - 1)%nat)) P_UNDEFINED); [congruence |].
  cbn [orb]. rewrite F.
  destruct (inner_gives (with_mem s (mem s) (sp s - 1)) (Some o) f false u1 r E) as (s1 & I & U & E1 & S1 & B1 & _).
  { rewrite Pf. exact Gf. }
  rewrite I, G. cbn in S1, B1.
  destruct (inner_gives s1 (Some o) g false u2 v E1) as (s2 & I2 & U2 & E2 & S2 & B2 & R2 & _).
  { rewrite Pg, U. exact Gg. }
  rewrite I2. eexists. split; [reflexivity |]. cbn. rewrite S2, S1. rewrite S1 in B2, R2. parts; auto.
  intros k Hk. rewrite B2 by lia. apply B1. lia.
Qed.
Theorem C129_compound_with_variable_refuted : forall ct s o p f g mp u1 u2 r a v,
  err s = false -> (1 <= sp s)%nat -> p_set p a = Some f -> p_get p = Some g ->
  f_params f = 1%nat -> f_params g = O -> (0 < f_locals g)%nat ->
  props (mem s (sp s - 1)%nat) <> P_UNDEFINED -> has (props (mem s (sp s - 1)%nat)) P_NULL = false ->
  Gives f (us s) (Some o) [mem s (sp s - 1)%nat] u1 r -> Gives g u1 (Some o) [] u2 v ->
  Result s (sp s - 1) u2 undef (set_op ct s a (TProp o p) mp).
Proof.
  intros ct s o p f g mp u1 u2 r a v E Sp F G Pf Pg L NU NN Gf Gg.
  unfold set_op. rewrite NN. destruct (Z.eqb_spec (props (mem s (sp s - 1)%nat)) P_UNDEFINED); [congruence |].
  cbn [orb]. rewrite F.
  destruct (inner_gives (with_mem s (mem s) (sp s - 1)) (Some o) f false u1 r E) as (s1 & I & U & E1 & S1 & B1 & _).
  { rewrite Pf. exact Gf. }
  rewrite I, G. cbn in S1, B1.
  destruct (inner_gives s1 (Some o) g false u2 v E1) as (s2 & I2 & U2 & E2 & S2 & B2 & _ & L2 & _).
  { rewrite Pg, U. exact Gg. }
  rewrite I2. eexists. split; [reflexivity |]. cbn. rewrite S2, S1. rewrite S1 in B2, L2. parts; auto.
  intros k Hk. rewrite B2 by lia. apply B1. lia.
Qed.

(** Two getters with the same body, one of them with a variable *)
Example C129_case : exists p q,
  find_prop Num "size" = Some p /\ find_prop Num "slow" = Some q /\
  Result vm0 5 usr0 (num 6) (get_prop vm0 101 p) /\ Result vm0 5 usr0 undef (get_prop vm0 101 q).
Proof.
  eexists _, _. split; [reflexivity |]. split; [reflexivity |]. split.
  - apply (C129_getter_value_partial vm0 101 _ f_get); try reflexivity. now apply Gives_ret with (l := []).
  - apply (C129_getter_with_variable_refuted vm0 101 _ f_get_var usr0 (num 6)); try reflexivity; [cbn; lia |].
    now apply Gives_ret with (l := []).
Qed.

(** ** C130: [o++] and its like give what the function of the class returned *)
Theorem C130_increment_value : forall ct s i t o f u v,
  err s = false ->
  match t with TObj o' => o' = o /\ exists c, Class_of ct (us s) o c /\ c_inc c i = Some f
             | TProp o' p => o' = o /\ p_inc p i = Some f end ->
  f_params f = O -> Gives f (us s) (Some o) [] u v ->
  Result s (sp s) u v (inc_op ct s i t).
Proof.
  intros ct s i t o f u v E T P G.
  assert (Q : inc_op ct s i t = match inner_call s (Some o) f true with None => Stop s | Some s1 => Go s1 end).
  { unfold inc_op. destruct t as [o' | o' p].
    - destruct T as (-> & c & C & I). apply class_at_of in C. now rewrite C, I.
    - destruct T as (-> & I). now rewrite I. }
  rewrite Q.
  destruct (inner_gives s (Some o) f true u v E) as (s1 & I & U & E1 & S1 & B & R & _).
  { rewrite P. exact G. }
  rewrite I. exists s1. parts; auto.
Qed.
Example C130_case :
  Result vm0 5 (set_fld usr0 100 "n" (num 6)) (num 5) (inc_op ct0 vm0 PostInc (TObj 100)).
Proof.
  apply (C130_increment_value ct0 vm0 PostInc (TObj 100) 100 f_inc); try reflexivity.
  - split; auto. exists Num. split; [exists (OOther 21); split; reflexivity | reflexivity].
  - now apply Gives_ret with (l := []).
Qed.

(** ** C131: an operator is applied to the values of its two operands, the left one read first *)
Theorem C131_operands_partial : forall ct s lb this f o u v1 v2 p v,
  err s = false -> Operands ct (mem s) (sp s) lb this (us s) f u v1 v2 p ->
  Tame ct (mem s) (sp s) lb this (us s) u f ->
  apply_op o u v1 v2 = Push v -> Result s p u v (op_instr ct s lb this o f).
Proof. exact op_push. Qed.

(** [this.p op this.q] with two properties is [q op q]. *)
Theorem C131_two_properties_refuted : forall ct s lb this x y o u1 u2 v1 v2 v p q g h,
  err s = false ->
  Property ct (us s) this x p -> p_get p = Some g -> f_params g = O -> Gives g (us s) (Some this) [] u1 v1 ->
  Property ct u1 this y q -> p_get q = Some h -> f_params h = O -> f_locals h = O ->
  Gives h u1 (Some this) [] u2 v2 ->
  apply_op o u2 v2 v2 = Push v ->
  Result s (sp s) u2 v (op_instr ct s lb this o (FRR (RThis x) (RThis y))).
Proof. exact two_properties. Qed.

(** [this.x op this.p] reads [this.x] after the getter of [p] ran. *)
Theorem C131_left_read_last_refuted : forall ct s lb this x y o u v2 v q h,
  err s = false -> Variable_ ct (us s) this x ->
  Property ct (us s) this y q -> p_get q = Some h -> f_params h = O -> f_locals h = O ->
  Gives h (us s) (Some this) [] u v2 ->
  apply_op o u (fld u this x) v2 = Push v ->
  Result s (sp s) u v (op_instr ct s lb this o (FRR (RThis x) (RThis y))).
Proof. exact changed_member. Qed.

(** [this.n - this.size] is right; [this.size - this.next] is 0 in place of -1, [this.n - this.next] too. *)
Example C131_case :
  Result vm0 5 usr0 (num 0) (op_instr ct0 vm0 0 100 OSub (FRR (RThis "n") (RThis "size"))) /\
  Result vm0 5 (set_fld usr0 100 "n" (num 6)) (num 0)
    (op_instr ct0 vm0 0 100 OSub (FRR (RThis "size") (RThis "next"))) /\
  Result vm0 5 (set_fld usr0 100 "n" (num 6)) (num 0)
    (op_instr ct0 vm0 0 100 OSub (FRR (RThis "n") (RThis "next"))).
Proof.
  assert (C : Class_of ct0 usr0 100 Num) by (exists (OOther 21); split; reflexivity).
  parts.
  - eapply (C131_operands_partial ct0 vm0 0 100 (FRR (RThis "n") (RThis "size")) OSub usr0 (num 5) (num 5)); try reflexivity.
    + eapply Os_RR.
      * apply (Op_var ct0 _ _ 100 usr0 "n"). now exists Num.
      * eapply (Op_prop ct0 _ _ 100 usr0 "size"); [exists Num; split; [exact C | reflexivity] | reflexivity | reflexivity |].
        now apply Gives_ret with (l := []).
    + cbn. parts; auto. left. parts; auto; [now exists Num |].
      intros p g (c & Cc & F) G. rewrite (class_fun _ _ _ _ _ Cc C) in F.
      assert (Q : forall q, find_prop Num "size" = Some q -> p_get q = Some f_get).
      { intros q W. vm_compute in W. injection W as <-. reflexivity. }
      rewrite (Q p F) in G. injection G as <-. reflexivity.
  - eapply (C131_two_properties_refuted ct0 vm0 0 100 "size" "next" OSub usr0 _ (num 5) (num 6)); try reflexivity;
      [exists Num; split; [exact C | reflexivity] | reflexivity | reflexivity | now apply Gives_ret with (l := [])
      | exists Num; split; [exact C | reflexivity] | reflexivity | reflexivity | reflexivity | now apply Gives_ret with (l := [])].
  - eapply (C131_left_read_last_refuted ct0 vm0 0 100 "n" "next" OSub _ (num 6)); try reflexivity;
      [now exists Num | exists Num; split; [exact C | reflexivity] | reflexivity | reflexivity | reflexivity
      | now apply Gives_ret with (l := [])].
Qed.

(** ** C132: a comparison function of a class receives the two operands in order *)
Theorem C132_comparison_partial : forall ct s lb this f c u v1 v2 p m ob a b g u' v,
  err s = false -> Operands ct (mem s) (sp s) lb this (us s) f u v1 v2 p ->
  Tame ct (mem s) (sp s) lb this (us s) u f ->
  const_right f = false ->
  apply_op (OCmp c) u v1 v2 = CallMeta m ob a b ->
  Operator ct u ob m g -> f_params g = 2%nat -> (2 <= f_locals g)%nat ->
  Gives g u None [v1; v2] u' v ->
  Result s p u' v (op_instr ct s lb this (OCmp c) f).
Proof.
  intros ct s lb this f c u v1 v2 p m ob a b g u' v E O T K A Op P L G.
  eapply (op_call ct s lb this f (OCmp c) u v1 v2 p m ob a b g 0); eauto; try lia.
Qed.

(** [x < 3] with a variable [x] on the left calls [_lt(x, x)], whatever the constant. *)
Theorem C132_constant_on_the_right_refuted : forall ct s lb this r k c u v1 p m ob a b g u' v,
  err s = false -> Operands ct (mem s) (sp s) lb this (us s) (FRK r k) u v1 k p ->
  Tame ct (mem s) (sp s) lb this (us s) u (FRK r k) ->
  has (props v1) P_OBJECT = true ->
  apply_op (OCmp c) u v1 k = CallMeta m ob a b ->
  Operator ct u ob m g -> f_params g = 2%nat -> (2 <= f_locals g)%nat ->
  Gives g u None [v1; v1] u' v ->
  Result s p u' v (op_instr ct s lb this (OCmp c) (FRK r k)).
Proof. exact cmp_const_right. Qed.

(** [x < y] for x.n = 5 and y.n = 6; [x < 6] is false; [4 < x] is true *)
Example C132_case :
  Result vm0 5 usr0 (Stk 1 P_BOOL) (op_instr ct0 vm0 0 100 (OCmp CLt) (FRR (RLoc 0) (RLoc 1))) /\
  Result vm0 5 usr0 (Stk 0 P_BOOL) (op_instr ct0 vm0 0 100 (OCmp CLt) (FRK (RLoc 0) (num 6))) /\
  Result vm0 5 usr0 (Stk 1 P_BOOL) (op_instr ct0 vm0 0 100 (OCmp CLt) (FKR (num 4) (RLoc 0))).
Proof.
  assert (C : Operator ct0 usr0 100 M_LT f_lt).
  { exists Num. parts; [exists (OOther 21); split; reflexivity | reflexivity | reflexivity]. }
  parts.
  - eapply (C132_comparison_partial ct0 vm0 0 100 (FRR (RLoc 0) (RLoc 1)) CLt usr0 (Stk 100 P_OBJECT) (Stk 101 P_OBJECT));
      try reflexivity; [| | exact C | reflexivity | cbn; lia | now apply Gives_ret with (l := [])].
    + eapply Os_RR; [exact (Op_local ct0 (mem vm0) 0 100 usr0 0) | exact (Op_local ct0 (mem vm0) 0 100 usr0 1)].
    + cbn. parts; auto; try lia; left; auto.
  - eapply (C132_constant_on_the_right_refuted ct0 vm0 0 100 (RLoc 0) (num 6) CLt usr0 (Stk 100 P_OBJECT));
      try reflexivity; [| | exact C | reflexivity | cbn; lia | now apply Gives_ret with (l := [])].
    + eapply Os_RK. exact (Op_local ct0 (mem vm0) 0 100 usr0 0).
    + cbn. split; auto; try lia.
  - eapply (C132_comparison_partial ct0 vm0 0 100 (FKR (num 4) (RLoc 0)) CLt usr0 (num 4) (Stk 100 P_OBJECT));
      try reflexivity; [| | exact C | reflexivity | cbn; lia | now apply Gives_ret with (l := [])].
    + eapply Os_KR. exact (Op_local ct0 (mem vm0) 0 100 usr0 0).
    + cbn. split; auto; try lia.
Qed.

(** ** C133: arithmetic and bit operator functions receive the two operands in order *)
Theorem C133_arithmetic : forall ct s lb this f o u v1 v2 p m ob a b g u' v,
  err s = false -> Operands ct (mem s) (sp s) lb this (us s) f u v1 v2 p ->
  Tame ct (mem s) (sp s) lb this (us s) u f ->
  (forall c, o <> OCmp c) ->
  apply_op o u v1 v2 = CallMeta m ob a b ->
  Operator ct u ob m g -> f_params g = 2%nat -> (2 <= f_locals g)%nat ->
  Gives g u None [v1; v2] u' v ->
  Result s p u' v (op_instr ct s lb this o f).
Proof.
  intros ct s lb this f o u v1 v2 p m ob a b g u' v E O T K A Op P L G.
  eapply (op_call ct s lb this f o u v1 v2 p m ob a b g 0); eauto; try lia.
  destruct o; auto. now specialize (K c).
Qed.
(** The function asked for is that of the operator, on the left object or else the right one. *)
Theorem C133_which_function : forall o u v1 v2 m ob a b,
  apply_op o u v1 v2 = CallMeta m ob a b -> m = op_meta o /\ Asked v1 v2 ob.
Proof.
  intros o u v1 v2 m ob a b A. apply apply_op_asked in A. apply call_meta2_asked in A. tauto.
Qed.
(** A unary operator runs the function of the class on the object. *)
Theorem C133_unary : forall ct s o v m ob a b c g u w l,
  err s = false -> (1 <= sp s)%nat -> mem s (sp s - 1)%nat = v ->
  apply_un o (us s) v = CallMeta m ob a b ->
  Class_of ct (us s) ob c -> find_method c (MOp m) = Some g -> f_static g = false -> f_params g = O ->
  f_body g (us s) (Some ob) [] = (u, RRet (w :: l)) ->
  Result s (sp s - 1) u w (un_instr ct s o).
Proof.
  intros ct s o v m ob a b c g u w l E Sp V A C F St P B. apply class_at_of in C.
  unfold un_instr. cbn [rd mem with_mem us]. rewrite V, A. cbn [finish]. unfold run_meta.
  change (class_at ct (with_mem s (mem s) (sp s - 1)) ob) with (class_at ct s ob). rewrite C, F, St. cbn [xorb].
  set (s1 := with_mem s (mem s) (sp s - 1)).
  assert (G : Gives g (us s1) (Some ob) (args_at (mem s1) (sp s1) (f_params g)) u w).
  { rewrite P. now apply Gives_ret with (l := l). }
  destruct (exec_gives s1 (Some ob) g (sp s1) u w G) as (X1 & X2 & X3 & _).
  assert (SpN : sp (exec s1 (Some ob) g (sp s1)) <> (sp s1 + f_locals g)%nat).
  { unfold exec. rewrite P. cbn [args_at seq map]. change (us s1) with (us s). rewrite B. cbn. lia. }
  destruct (Nat.eqb_spec (sp (exec s1 (Some ob) g (sp s1))) (sp s1 + f_locals g)); [congruence |].
  cbn [err push with_mem]. rewrite X2. replace (err s1) with false by (symmetry; exact E).
  eexists. split; [reflexivity |]. cbn -[exec]. unfold upd. rewrite Nat.eqb_refl. parts; auto.
  - transitivity (err s1); [exact X2 | exact E].
  - intros k Hk. destruct (Nat.eqb_spec k (sp s - 1)); [lia |]. rewrite exec_below by exact Hk. reflexivity.
Qed.
(** Which function that is *)
Theorem C133_which_unary : forall o u v m ob a b,
  apply_un o u v = CallMeta m ob a b ->
  ob = val v /\ has (props v) P_OBJECT = true /\ m = match o with UNot => M_NOT | UNeg => M_NEG | UBwc => M_BWC end.
Proof.
  intros o u v m ob a b A.
  assert (Q : forall m0, call_meta1 (hp u) m0 v = CallMeta m ob a b -> ob = val v /\ has (props v) P_OBJECT = true /\ m = m0).
  { intros m0 H. unfold call_meta1 in H. destruct (obj_of (hp u) v); [| discriminate].
    destruct (has (props v) P_OBJECT); [| discriminate]. injection H as <- <- _ _. auto. }
  destruct o; cbn in A; unfold op_not, op_neg, op_bwc, push_bool, push_float, push_int in A;
    repeat match type of A with (if ?c then _ else _) = _ => destruct c end; try discriminate; now apply Q.
Qed.
Definition f_neg : fn := Fn 0 2 false (fun u t _ => (u, RRet [num (- val (fld u (the t) "n"))])) junk.
(** [-x] for x.n = 5 *)
Example C133_unary_case :
  let ct1 : types := fun t => if t =? 21 then class_of None [DMethod (MOp M_NEG) f_neg] else None in
  Result vm0 4 usr0 (num (-5)) (un_instr ct1 (with_mem vm0 (upd (mem vm0) 4 (Stk 100 P_OBJECT)) 5) UNeg).
Proof.
  cbv zeta.
  destruct (C133_unary (fun t => if t =? 21 then class_of None [DMethod (MOp M_NEG) f_neg] else None)
    (with_mem vm0 (upd (mem vm0) 4 (Stk 100 P_OBJECT)) 5) UNeg (Stk 100 P_OBJECT) M_NEG 100 (Stk 100 P_OBJECT) (Stk 100 P_OBJECT)
    (some_cls (class_of None [DMethod (MOp M_NEG) f_neg])) f_neg usr0 (num (-5)) [])
    as (s' & A & B & C & D & E & F); try reflexivity; [cbn; lia | exists (OOther 21); split; reflexivity |].
  exists s'. parts; auto. intros k Hk. rewrite F by exact Hk. cbn. unfold upd. destruct (Nat.eqb_spec k 4); [lia | reflexivity].
Qed.

(** [x - 2] and [2 - x] for x.n = 5 *)
Example C133_case :
  Result vm0 5 usr0 (num 3) (op_instr ct0 vm0 0 100 OSub (FRK (RLoc 0) (num 2))) /\
  Result vm0 5 usr0 (num (-3)) (op_instr ct0 vm0 0 100 OSub (FKR (num 2) (RLoc 0))).
Proof.
  assert (C : Operator ct0 usr0 100 M_SUB f_sub).
  { exists Num. parts; [exists (OOther 21); split; reflexivity | reflexivity | reflexivity]. }
  split.
  - eapply (C133_arithmetic ct0 vm0 0 100 (FRK (RLoc 0) (num 2)) OSub usr0 (Stk 100 P_OBJECT) (num 2));
      try reflexivity; [| | discriminate | exact C | reflexivity | cbn; lia | now apply Gives_ret with (l := [])].
    + eapply Os_RK. exact (Op_local ct0 (mem vm0) 0 100 usr0 0).
    + cbn. split; auto; try lia.
  - eapply (C133_arithmetic ct0 vm0 0 100 (FKR (num 2) (RLoc 0)) OSub usr0 (num 2) (Stk 100 P_OBJECT));
      try reflexivity; [| | discriminate | exact C | reflexivity | cbn; lia | now apply Gives_ret with (l := [])].
    + eapply Os_KR. exact (Op_local ct0 (mem vm0) 0 100 usr0 0).
    + cbn. split; auto; try lia.
Qed.

(** ** C134: an operator that the class of one of the operands defines is used *)
(** It is not when the left operand is an object of a class without it. *)
Theorem C134_left_class_only_refuted : forall ct s lb this f o u v1 v2 p m ob a b g,
  err s = false -> Operands ct (mem s) (sp s) lb this (us s) f u v1 v2 p ->
  Tame ct (mem s) (sp s) lb this (us s) u f ->
  apply_op o u v1 v2 = CallMeta m ob a b ->
  has (props v1) P_OBJECT = true ->
  (forall g', ~ Operator ct u (val v1) m g') ->
  Operator ct u (val v2) m g ->
  exists s', op_instr ct s lb this o f = Stop s'.
Proof. intros. eapply no_operator; eauto. Qed.
(** It is when the left operand has it, or is no object and the right one has it. *)
Theorem C134_operator_used_partial : forall ct s lb this f o u v1 v2 p m ob a b g u' v,
  err s = false -> Operands ct (mem s) (sp s) lb this (us s) f u v1 v2 p ->
  Tame ct (mem s) (sp s) lb this (us s) u f ->
  (match o with OCmp _ => const_right f = false | _ => True end) ->
  apply_op o u v1 v2 = CallMeta m ob a b ->
  (has (props v1) P_OBJECT = true /\ Operator ct u (val v1) m g
   \/ has (props v1) P_OBJECT = false /\ Operator ct u (val v2) m g) ->
  f_params g = 2%nat -> (2 <= f_locals g)%nat ->
  Gives g u None [v1; v2] u' v ->
  Result s p u' v (op_instr ct s lb this o f).
Proof.
  intros ct s lb this f o u v1 v2 p m ob a b g u' v E O T K A Op P L G.
  assert (Op' : Operator ct u ob m g).
  { pose proof (apply_op_asked _ _ _ _ _ _ _ _ A) as A'. apply call_meta2_asked in A'.
    destruct A' as (_ & _ & _ & [(X & ->) | (X & Y & ->)]), Op as [(W & Op) | (W & Op)]; congruence. }
  eapply (op_call ct s lb this f o u v1 v2 p m ob a b g 0); eauto; try lia.
Qed.
(** [bare - x]: no; [9 - x]: yes *)
Example C134_case :
  (exists s', op_instr ct0 vm0 0 100 OSub (FRR (RLoc 3) (RLoc 0)) = Stop s') /\
  Result vm0 5 usr0 (num 4) (op_instr ct0 vm0 0 100 OSub (FKR (num 9) (RLoc 0))).
Proof.
  assert (C : Operator ct0 usr0 100 M_SUB f_sub).
  { exists Num. parts; [exists (OOther 21); split; reflexivity | reflexivity | reflexivity]. }
  split.
  - eapply (C134_left_class_only_refuted ct0 vm0 0 100 (FRR (RLoc 3) (RLoc 0)) OSub usr0 (Stk 103 P_OBJECT) (Stk 100 P_OBJECT));
      try reflexivity; [| | | exact C].
    + eapply Os_RR; [exact (Op_local ct0 (mem vm0) 0 100 usr0 3) | exact (Op_local ct0 (mem vm0) 0 100 usr0 0)].
    + cbn. parts; auto; try lia; left; auto.
    + intros g (c & Cc & F & _). assert (B : Class_of ct0 usr0 103 Bare) by (exists (OOther 23); split; reflexivity).
      rewrite (class_fun _ _ _ _ _ Cc B) in F. discriminate.
  - eapply (C134_operator_used_partial ct0 vm0 0 100 (FKR (num 9) (RLoc 0)) OSub usr0 (num 9) (Stk 100 P_OBJECT));
      try reflexivity; [| | right; split; [reflexivity | exact C] | reflexivity | cbn; lia | now apply Gives_ret with (l := [])].
    + eapply Os_KR. exact (Op_local ct0 (mem vm0) 0 100 usr0 0).
    + cbn. split; auto; try lia.
Qed.

(** ** C135: a derived class answers the operators of its base unless it declares its own *)
Theorem C135_operators_inherited : forall b ds c m,
  class_of (Some b) ds = Some c ->
  (exists f, Declares ds m f /\ find_method c m = Some f) \/
  ((forall f, ~ Declares ds m f) /\ find_method c m = find_method b m).
Proof. intros b ds c m H. exact (decls_find ds (new_class (Some b)) c m H). Qed.
(** So the operators of the base apply to objects of the derived class. *)
Theorem C135_operators_apply : forall ct s lb this f o u v1 v2 p m ob a b g u' v base ds c,
  err s = false -> Operands ct (mem s) (sp s) lb this (us s) f u v1 v2 p ->
  Tame ct (mem s) (sp s) lb this (us s) u f ->
  (match o with OCmp _ => const_right f = false | _ => True end) ->
  apply_op o u v1 v2 = CallMeta m ob a b ->
  Class_of ct u ob c -> class_of (Some base) ds = Some c -> (forall f', ~ Declares ds (MOp m) f') ->
  find_method base (MOp m) = Some g -> f_static g = true ->
  f_params g = 2%nat -> (2 <= f_locals g)%nat ->
  Gives g u None [v1; v2] u' v ->
  Result s p u' v (op_instr ct s lb this o f).
Proof.
  intros ct s lb this f o u v1 v2 p m ob a b g u' v base ds c E O T K A Cl Co N F St P L G.
  assert (Op : Operator ct u ob m g).
  { exists c. parts; auto. destruct (C135_operators_inherited base ds c (MOp m) Co) as [(f' & D & _) | (_ & Q)].
    - exfalso. now apply (N f').
    - congruence. }
  eapply (op_call ct s lb this f o u v1 v2 p m ob a b g 0); eauto; try lia.
Qed.
(** [d - 2] for an object of [Sub], d.n = 7 *)
Example C135_case : Result vm0 5 usr0 (num 5) (op_instr ct0 vm0 0 100 OSub (FRK (RLoc 2) (num 2))).
Proof.
  eapply (C135_operators_apply ct0 vm0 0 100 (FRK (RLoc 2) (num 2)) OSub usr0 (Stk 102 P_OBJECT) (num 2));
    try reflexivity; [| | | apply C129_world | | reflexivity | reflexivity | reflexivity | cbn; lia | now apply Gives_ret with (l := [])].
  - eapply Os_RK. exact (Op_local ct0 (mem vm0) 0 100 usr0 2).
  - cbn. split; auto; try lia.
  - exists (OOther 22); split; reflexivity.
  - intros f [C | []]. discriminate.
Qed.

(** ** C136: a derived class answers the assignment and increment operators of its base *)
(** It has only those it declares. *)
Theorem C136_own_setters_partial : forall b ds c a i,
  class_of b ds = Some c ->
  ((exists f, Declares ds (MAsg a) f /\ c_set c a = Some f) \/ ((forall f, ~ Declares ds (MAsg a) f) /\ c_set c a = None)) /\
  ((exists f, Declares ds (MInc i) f /\ c_inc c i = Some f) \/ ((forall f, ~ Declares ds (MInc i) f) /\ c_inc c i = None)).
Proof.
  intros b ds c a i H. split.
  - destruct (decls_own ds (new_class b) c a H) as [X | (N & X)]; [now left | right]. split; auto. destruct b; exact X.
  - destruct (decls_inc ds (new_class b) c i H) as [X | (N & X)]; [now left | right]. split; auto. destruct b; exact X.
Qed.
(** An object with a setter of its own class: the assignment runs it and keeps the variable. *)
Theorem C136_assignment_calls_partial : forall ct s n v c f u r,
  class_object (us s) (mem s n) = true -> Class_of ct (us s) (val (mem s n)) c -> c_set c ASet = Some f ->
  f_params f = 1%nat -> Gives f (us s) (Some (val (mem s n))) [v] u r ->
  us (store_var ct s n v) = u /\ sp (store_var ct s n v) = sp s /\ err (store_var ct s n v) = err s /\
  forall k, (k <= sp s)%nat -> mem (store_var ct s n v) k = mem s k.
Proof.
  intros ct s n v c f u r O C F P G. unfold store_var. rewrite O. apply class_at_of in C. rewrite C, F.
  exact (run_setter_gives s (val (mem s n)) f v u r P G).
Qed.
(** A compound assignment runs the function of the class, or of the property, on the right
    operand; an object is its own result, and so is a property without getter. *)
Theorem C136_compound_calls_partial : forall ct s a t o f mp u r,
  err s = false -> (1 <= sp s)%nat ->
  match t with TObj o' => o' = o /\ exists c, Class_of ct (us s) o c /\ c_set c a = Some f
             | TProp o' p => o' = o /\ p_set p a = Some f /\ p_get p = None end ->
  f_params f = 1%nat ->
  props (mem s (sp s - 1)%nat) <> P_UNDEFINED -> has (props (mem s (sp s - 1)%nat)) P_NULL = false ->
  Gives f (us s) (Some o) [mem s (sp s - 1)%nat] u r ->
  Result s (sp s - 1) u (match t with TObj _ => Stk o P_OBJECT | TProp _ _ => mp end) (set_op ct s a t mp).
Proof.
  intros ct s a t o f mp u r E Sp T P NU NN G. unfold set_op. rewrite NN.
  destruct (Z.eqb_spec (props (mem s (sp s - 1)%nat)) P_UNDEFINED); [congruence |]. cbn [orb].
  destruct (inner_gives (with_mem s (mem s) (sp s - 1)) (Some o) f false u r E) as (s1 & I & U & E1 & S1 & B1 & _).
  { rewrite P. exact G. }
  cbn in S1, B1.
  assert (Q : forall v, Result s (sp s - 1) u v (Go (push s1 v))).
  { intro v. eexists. split; [reflexivity |]. cbn. rewrite S1. unfold upd. rewrite Nat.eqb_refl. parts; auto.
    intros k Hk. destruct (Nat.eqb_spec k (sp s - 1)); [lia |]. now apply B1. }
  destruct t as [o' | o' p].
  - destruct T as (-> & c & C & F). apply class_at_of in C. rewrite C, F, I. apply Q.
  - destruct T as (-> & F & N). rewrite F, I, N. apply Q.
Qed.
Example C136_compound_case :
  Result vm0 4 (say (set_fld usr0 100 "n" (num 9)) (num 9)) (Stk 100 P_OBJECT) (set_op ct0 vm0 AAdd (TObj 100) undef).
Proof.
  apply (C136_compound_calls_partial ct0 vm0 AAdd (TObj 100) 100 f_set undef
    (say (set_fld usr0 100 "n" (num 9)) (num 9)) undef); try reflexivity; try discriminate.
  - cbn. lia.
  - split; auto. exists Num. split; [exists (OOther 21); split; reflexivity | reflexivity].
  - now apply Gives_end.
Qed.
(** An object of a derived class: whatever setter the base has, the variable is overwritten and
    no function is called; compound assignments and increments are errors. *)
Theorem C136_derived_object_refuted : forall ct s n v base ds c,
  class_object (us s) (mem s n) = true -> Class_of ct (us s) (val (mem s n)) c ->
  class_of (Some base) ds = Some c ->
  (forall a f, ~ Declares ds (MAsg a) f) -> (forall i f, ~ Declares ds (MInc i) f) ->
  store_var ct s n v = with_mem s (upd (mem s) n v) (sp s) /\
  (forall a mp, exists s', set_op ct s a (TObj (val (mem s n))) mp = Stop s') /\
  (forall i, inc_op ct s i (TObj (val (mem s n))) = Stop s).
Proof.
  intros ct s n v base ds c O C H Na Ni. apply class_at_of in C.
  assert (A : forall a, c_set c a = None).
  { intro a. destruct (C136_own_setters_partial _ _ _ a PostInc H) as ([(f & D & _) | (_ & X)] & _); auto.
    exfalso. now apply (Na a f). }
  assert (I : forall i, c_inc c i = None).
  { intro i. destruct (C136_own_setters_partial _ _ _ ASet i H) as (_ & [(f & D & _) | (_ & X)]); auto.
    exfalso. now apply (Ni i f). }
  parts.
  - unfold store_var. now rewrite O, C, A.
  - intros a mp. unfold set_op. destruct (_ || _); [eauto |]. rewrite C, A. eauto.
  - intro i. unfold inc_op. now rewrite C, I.
Qed.
(** [x = 8] sets x.n; [d = 8] replaces the object *)
Example C136_case :
  us (store_var ct0 vm0 0 (num 8)) = say (set_fld usr0 100 "n" (num 8)) (num 8) /\
  mem (store_var ct0 vm0 0 (num 8)) 0%nat = Stk 100 P_OBJECT /\
  mem (store_var ct0 vm0 2 (num 8)) 2%nat = num 8 /\ us (store_var ct0 vm0 2 (num 8)) = usr0.
Proof.
  destruct (C136_assignment_calls_partial ct0 vm0 0 (num 8) Num f_set (say (set_fld usr0 100 "n" (num 8)) (num 8)) undef)
    as (A & _ & _ & B); try reflexivity.
  - exists (OOther 21); split; reflexivity.
  - now apply Gives_end.
  - destruct (C136_derived_object_refuted ct0 vm0 2 (num 8) Num [DProp "more" [(PGet, f_get)]] Sub) as (C & _).
    + reflexivity.
    + exists (OOther 22); split; reflexivity.
    + apply C129_world.
    + intros a f [X | []]. discriminate.
    + intros i f [X | []]. discriminate.
    + rewrite C. parts; auto.
Qed.

(** ** C137: a derived class has the properties of its base and those it declares, no others *)
Theorem C137_properties : forall b ds c x,
  class_of (Some b) ds = Some c ->
  (forall p, find_prop b x = Some p -> find_prop c x = Some p) /\
  (forall l, In (DProp x l) ds -> exists p, add_prop_fns no_prop l = Some p /\ find_prop c x = Some p) /\
  (find_prop b x = None -> ~ Declares_prop ds x -> find_prop c x = None).
Proof.
  intros b ds c x H. destruct (decls_prop ds (new_class (Some b)) c x H) as (A & B & C). parts.
  - intros p F. now apply A.
  - intros l I. apply B; auto. destruct (find_prop (new_class (Some b)) x) as [p |] eqn:F; auto.
    destruct (A p eq_refl) as (_ & N). exfalso. apply N. now exists l.
  - exact C.
Qed.
(** The functions of a property are the ones declared for it, one for each name. *)
Theorem C137_property_functions : forall l p0 p,
  add_prop_fns p0 l = Some p ->
  (forall k f, In (k, f) l -> match k with PGet => p_get p = Some f /\ f_params f = O
     | PInc i => p_inc p i = Some f /\ f_params f = O | PAsg a => p_set p a = Some f /\ f_params f = 1%nat end) /\
  (forall k, (forall f, ~ In (k, f) l) -> match k with PGet => p_get p = p_get p0
     | PInc i => p_inc p i = p_inc p0 i | PAsg a => p_set p a = p_set p0 a end).
Proof.
  induction l as [| (k, f) l IH]; intros p0 p H; cbn in H.
  - injection H as <-. split; [intros k f [] |]. intros [| i | a] _; reflexivity.
  - destruct (add_prop_fn p0 k f) as [p1 |] eqn:D; [| discriminate].
    destruct (IH p1 p H) as (I1 & I2).
    assert (Keep : forall k', (match k' with PGet => exists g, p_get p1 = Some g | PInc i => exists g, p_inc p1 i = Some g
        | PAsg a => exists g, p_set p1 a = Some g end) -> forall f', ~ In (k', f') l).
    { clear -H. revert p1 H. induction l as [| (k0, f0) l IH]; intros p1 H k' X f' I; [destruct I |]. cbn in H.
      destruct (add_prop_fn p1 k0 f0) as [p2 |] eqn:D; [| discriminate].
      destruct I as [E | I].
      - injection E as -> ->. unfold add_prop_fn in D. destruct k' as [| i | a], X as (g & X); rewrite X in D; try discriminate.
        destruct (Nat.eqb (f_params f') 1); discriminate.
      - refine (IH p2 H k' _ f' I). clear -X D.
        unfold add_prop_fn in D. destruct k0 as [| i0 | a0].
        + destruct (p_get p1) eqn:Q; [discriminate |]. destruct (Nat.eqb _ _); [| discriminate]. injection D as <-.
          destruct k'; cbn in *; auto. eauto.
        + destruct (p_inc p1 i0) eqn:Q; [discriminate |]. destruct (Nat.eqb _ _); [| discriminate]. injection D as <-.
          destruct k'; cbn in *; auto. unfold put. destruct (inc_eq_dec i i0); eauto.
        + destruct (Nat.eqb _ _); [| discriminate]. destruct (p_set p1 a0) eqn:Q; [discriminate |]. injection D as <-.
          destruct k'; cbn in *; auto. unfold put. destruct (aop_eq_dec a a0); eauto. }
    unfold add_prop_fn in D. split.
    + intros k' f' [E | I]; [injection E as <- <- | now apply I1].
      destruct k as [| i | a].
      * destruct (p_get p0); [discriminate |]. destruct (Nat.eqb_spec (f_params f) 0) as [Z |]; [| discriminate]. injection D as <-.
        rewrite (I2 PGet); [auto |]. apply (Keep PGet). cbn. eauto.
      * destruct (p_inc p0 i); [discriminate |]. destruct (Nat.eqb_spec (f_params f) 0) as [Z |]; [| discriminate]. injection D as <-.
        rewrite (I2 (PInc i)); [cbn; unfold put; destruct (inc_eq_dec i i); tauto |]. apply (Keep (PInc i)).
        cbn. unfold put. destruct (inc_eq_dec i i); [eauto | congruence].
      * destruct (Nat.eqb_spec (f_params f) 1) as [Z |]; [| discriminate]. destruct (p_set p0 a); [discriminate |]. injection D as <-.
        rewrite (I2 (PAsg a)); [cbn; unfold put; destruct (aop_eq_dec a a); tauto |]. apply (Keep (PAsg a)).
        cbn. unfold put. destruct (aop_eq_dec a a); [eauto | congruence].
    + intros k' N. assert (N' : forall g, ~ In (k', g) l). { intros g I. apply (N g). now right. }
      specialize (I2 k' N'). assert (Ne : k' <> k). { intros ->. apply (N f). now left. }
      destruct k as [| i | a].
      * destruct (p_get p0); [discriminate |]. destruct (Nat.eqb _ _); [| discriminate]. injection D as <-.
        destruct k'; cbn in *; auto. congruence.
      * destruct (p_inc p0 i); [discriminate |]. destruct (Nat.eqb _ _); [| discriminate]. injection D as <-.
        destruct k'; cbn in *; auto. rewrite I2. unfold put. destruct (inc_eq_dec i0 i); congruence.
      * destruct (Nat.eqb _ _); [| discriminate]. destruct (p_set p0 a); [discriminate |]. injection D as <-.
        destruct k'; cbn in *; auto. rewrite I2. unfold put. destruct (aop_eq_dec a0 a); congruence.
Qed.
Example C137_case : exists p, find_prop Sub "size" = Some p /\ p_get p = Some f_get /\ p_set p ASet = Some f_set /\
  find_prop Sub "more" <> None /\ find_prop Sub "nothing" = None.
Proof.
  destruct (C137_properties Num [DProp "more" [(PGet, f_get)]] Sub "size" (proj1 (proj2 C129_world))) as (A & _).
  destruct (C137_properties Num [DProp "more" [(PGet, f_get)]] Sub "more" (proj1 (proj2 C129_world))) as (_ & B & _).
  destruct (B _ (or_introl eq_refl)) as (q & _ & Q).
  eexists. split; [apply A; reflexivity |]. parts; try reflexivity. rewrite Q. discriminate.
Qed.

(** ** C138: a derived class may redefine a property of its base *)
(** It never may. *)
Theorem C138_redefinition_refused_refuted : forall b x p ds,
  find_prop b x = Some p -> Declares_prop ds x -> class_of (Some b) ds = None.
Proof. intros b x p ds F D. exact (decls_prop_refused ds (new_class (Some b)) x p F D). Qed.
(** A property of another name is accepted with what it declares. *)
Theorem C138_new_property_partial : forall b x l p,
  find_prop b x = None -> add_prop_fns no_prop l = Some p ->
  exists c, class_of (Some b) [DProp x l] = Some c /\ find_prop c x = Some p.
Proof.
  intros b x l p F A. unfold class_of. cbn [add_decls add_decl]. unfold add_prop.
  change (find_prop (new_class (Some b)) x) with (find_prop b x). rewrite F, A. eexists. split; [reflexivity |].
  unfold find_prop in *. cbn [c_props new_class]. rewrite find_app.
  destruct (find (fun q : string * prop => String.eqb (fst q) x) (c_props b)); [discriminate |]. cbn.
  now rewrite String.eqb_refl.
Qed.
Example C138_case : class_of (Some Num) [DProp "size" [(PGet, f_get)]] = None.
Proof.
  eapply (C138_redefinition_refused_refuted Num "size"); [reflexivity |]. eexists. left. reflexivity.
Qed.

(** ** C139: a member function may redefine an operator of its base, but not its own *)
Theorem C139_declared_once : forall b ds c m f f' i j,
  class_of b ds = Some c -> nth_error ds i = Some (DMethod m f) -> nth_error ds j = Some (DMethod m f') -> i = j.
Proof.
  intros b ds c m f f' i j H. unfold class_of in H.
  assert (Inh : (c_inh (new_class b) <= List.length (c_methods (new_class b)))%nat) by (destruct b; cbn; lia).
  revert Inh i j H. generalize (new_class b) as c0. clear b.
  (* a function already there keeps the name *)
  assert (Had : forall ds c0 c1 m f, add_decls c0 ds = Some c1 ->
    existsb (hit m) (skipn (c_inh c0) (c_methods c0)) = true -> ~ Declares ds m f).
  { clear. induction ds as [| d ds IH]; intros c0 c1 m f H X I; [destruct I |]. cbn in H.
    destruct (add_decl c0 d) as [c2 |] eqn:D; [| discriminate].
    assert (X2 : existsb (hit m) (skipn (c_inh c2) (c_methods c2)) = true).
    { destruct d as [m1 f1 | x l]; cbn in D.
      - destruct (add_method_inh _ _ _ _ D) as (A & B & _). rewrite A, B, skipn_app, existsb_app, X. reflexivity.
      - unfold add_prop in D. destruct (find_prop c0 x); [discriminate |].
        destruct (add_prop_fns no_prop l); [| discriminate]. injection D as <-. exact X. }
    destruct I as [-> | I]; [| now apply (IH c2 c1 m f H X2)].
    cbn in D. destruct (add_method_inh _ _ _ _ D) as (_ & _ & _ & _ & E). congruence. }
  induction ds as [| d ds IH]; intros c0 Inh i j H I J; [destruct i; discriminate |].
  cbn in H. destruct (add_decl c0 d) as [c1 |] eqn:D; [| discriminate].
  assert (Inh1 : (c_inh c1 <= List.length (c_methods c1))%nat).
  { destruct d as [m1 f1 | x l]; cbn in D.
    - destruct (add_method_inh _ _ _ _ D) as (A & B & _). rewrite A, B, app_length. lia.
    - unfold add_prop in D. destruct (find_prop c0 x); [discriminate |].
      destruct (add_prop_fns no_prop l); [| discriminate]. injection D as <-. exact Inh. }
  assert (New : forall g, d = DMethod m g -> existsb (hit m) (skipn (c_inh c1) (c_methods c1)) = true).
  { intros g ->. cbn in D. destruct (add_method_inh _ _ _ _ D) as (A & B & _).
    rewrite A, B, skipn_app, existsb_app. replace (c_inh c0 - List.length (c_methods c0))%nat with O by lia. cbn [skipn existsb].
    unfold hit at 2. cbn [fst]. destruct (mm_eq_dec m m); [| congruence]. cbn. apply orb_true_r. }
  destruct i as [| i], j as [| j]; auto; cbn in I, J.
  - injection I as ->. exfalso. apply (Had ds c1 c m f' H (New f eq_refl)). eapply nth_error_In; eauto.
  - injection J as ->. exfalso. apply (Had ds c1 c m f H (New f' eq_refl)). eapply nth_error_In; eauto.
  - f_equal. now apply (IH c1 Inh1 i j).
Qed.
(** What is accepted is static as its operator needs, with at least the parameters it needs. *)
Theorem C139_arity : forall b ds c m f,
  class_of b ds = Some c -> Declares ds m f -> mm_static m = f_static f /\ (mm_args m <= f_params f)%nat.
Proof. intros b ds c m f H D. exact (decls_arity ds (new_class b) c m f H D). Qed.
(** What they need: the two operands, the assigned value, or nothing but the object. *)
Theorem C139_signatures : forall b ds c m f,
  class_of b ds = Some c -> Declares ds m f ->
  match m with
  | MOp M_NOT | MOp M_NEG | MOp M_BWC | MToStr | MInc _ => f_static f = false
  | MOp _ => f_static f = true /\ (2 <= f_params f)%nat
  | MAsg _ | MIn => f_static f = false /\ (1 <= f_params f)%nat
  | MBwcAsg => f_static f = false
  end.
Proof.
  intros b ds c m f H D. destruct (C139_arity b ds c m f H D) as [A B]. destruct m; try match goal with o : meta |- _ => destruct o end; cbn in *; auto.
Qed.
Example C139_case : class_of None [DMethod (MOp M_SUB) f_sub; DMethod (MOp M_SUB) f_sub] = None /\
  class_of None [DMethod (MOp M_SUB) f_get] = None /\
  (exists c, class_of (Some Num) [DMethod (MOp M_SUB) f_lt] = Some c /\ find_method c (MOp M_SUB) = Some f_lt).
Proof. parts; try reflexivity. eexists. split; reflexivity. Qed.

(** ** C140: the parameters of an operator function are its operands *)
(** With more parameters than operands the others hold what the stack held before. *)
Theorem C140_stale_parameters_refuted : forall ct s lb this n1 n2 o m ob a b g n u' v,
  err s = false -> (lb + n1 < sp s - 1)%nat -> (lb + n2 < sp s - 1)%nat ->
  apply_op o (us s) (mem s (lb + n1)%nat) (mem s (lb + n2)%nat) = CallMeta m ob a b ->
  Operator ct (us s) ob m g -> f_params g = (2 + n)%nat -> (f_params g <= f_locals g)%nat ->
  Gives g (us s) None (mem s (lb + n1)%nat :: mem s (lb + n2)%nat :: args_at (mem s) (sp s + 2) n) u' v ->
  Result s (sp s) u' v (op_instr ct s lb this o (FRR (RLoc n1) (RLoc n2))).
Proof.
  intros ct s lb this n1 n2 o m ob a b g n u' v E B1 B2 A Op P L G.
  unfold op_instr. cbn [pop_two load_reg].
  assert (Q : forall s2 a1 a2, mem s2 = mem s -> sp s2 = sp s -> us s2 = us s -> err s2 = err s ->
    rd s2 a1 = mem s (lb + n1)%nat -> rd s2 a2 = mem s (lb + n2)%nat -> a2 <> LStk (sp s2) ->
    Result s (sp s) u' v (run_meta ct s2 m ob true a1 a2)).
  { intros s2 a1 a2 Q1 Q2 Q3 Q4 Q5 Q6 Q7.
    destruct (run_meta_static ct s2 m ob a1 a2 g n u' v) as (s3 & W1 & W2 & W3 & W4 & W5 & W6); auto.
    - congruence.
    - now rewrite Q3.
    - rewrite Q5, Q6, Q3. unfold more. now rewrite Q1, Q2.
    - exists s3. rewrite Q2 in *. rewrite Q1 in W6. parts; auto. }
  pose proof (apply_op_asked _ _ _ _ _ _ _ _ A) as A'.
  assert (N2 : LStk (lb + n2) <> LStk (sp s)) by (intro C; injection C; lia).
  unfold do_op. cbn [rd]. rewrite A. destruct o as [| | | | | x | c]; try (apply Q; auto).
  cbn [op_meta] in A'. cbn [mem sp aux1 aux2 us err rd]. rewrite A'. cbn [finish]. apply Q; auto. discriminate.
Qed.
(** With exactly two they are the operands (C132, C133); and such functions are registered. *)
Theorem C140_two_parameters_partial : forall ct s lb this n1 n2 o m ob a b g u' v,
  err s = false -> (lb + n1 < sp s - 1)%nat -> (lb + n2 < sp s - 1)%nat ->
  apply_op o (us s) (mem s (lb + n1)%nat) (mem s (lb + n2)%nat) = CallMeta m ob a b ->
  Operator ct (us s) ob m g -> f_params g = 2%nat -> (2 <= f_locals g)%nat ->
  Gives g (us s) None [mem s (lb + n1)%nat; mem s (lb + n2)%nat] u' v ->
  Result s (sp s) u' v (op_instr ct s lb this o (FRR (RLoc n1) (RLoc n2))).
Proof.
  intros ct s lb this n1 n2 o m ob a b g u' v E B1 B2 A Op P L G.
  eapply (C140_stale_parameters_refuted ct s lb this n1 n2 o m ob a b g 0); eauto. lia.
Qed.
Definition f_three : fn := Fn 3 3 true (fun u _ a => (u, RRet [nth 2 a undef])) junk.
Example C140_case :
  let ct1 : types := fun t => if t =? 21 then class_of None [DMethod (MOp M_MUL) f_three] else None in
  Result vm0 5 usr0 (num 9) (op_instr ct1 vm0 0 100 OMul (FRR (RLoc 0) (RLoc 1))).
Proof.
  cbv zeta. eapply (C140_stale_parameters_refuted _ vm0 0 100 0 1 OMul M_MUL 100 _ _ f_three 1); try reflexivity; try (cbn; lia).
  - eexists. parts; [eexists; split; reflexivity | reflexivity | reflexivity].
  - now apply Gives_ret with (l := []).
Qed.

(** ** C141: assigning a property from inside the class is assigning it from outside *)
(** From outside: the setter runs once on the value, nothing else. *)
Theorem C141_outside : forall s o p f u r,
  err s = false -> (1 <= sp s)%nat -> p_set p ASet = Some f -> f_params f = 1%nat ->
  Gives f (us s) (Some o) [mem s (sp s - 1)%nat] u r ->
  exists s', set_prop s o p = Go s' /\ us s' = u /\ sp s' = sp s /\ err s' = false /\
    forall k, (k <= sp s)%nat -> mem s' k = mem s k.
Proof.
  intros s o p f u r E Sp F P G. unfold set_prop. rewrite F. eexists. split; [reflexivity |].
  destruct (run_setter_gives s o f (mem s (sp s - 1)%nat) u r P G) as (A & B & C & D). parts; auto. congruence.
Qed.
(** From inside it is the same when the getter changes nothing and returns no object of a class. *)
Theorem C141_inside_partial : forall s o p f g v u r,
  err s = false -> (1 <= sp s)%nat -> p_set p ASet = Some f -> f_params f = 1%nat ->
  p_get p = Some g -> f_params g = O -> f_locals g = O -> Gives g (us s) (Some o) [] (us s) v ->
  class_object (us s) v = false ->
  Gives f (us s) (Some o) [mem s (sp s - 1)%nat] u r ->
  exists s', set_this_prop s o p = Go s' /\ us s' = u /\ sp s' = sp s /\ err s' = false /\
    forall k, (k < sp s)%nat -> mem s' k = mem s k.
Proof.
  intros s o p f g v u r E Sp F P G Pg Lg Gg Co Gf. unfold set_this_prop. rewrite G.
  destruct (inner_gives s (Some o) g false (us s) v E) as (s1 & I & U & E1 & S1 & B & R & _).
  { rewrite Pg. exact Gg. }
  rewrite I, S1, R, U, Co by auto.
  destruct (C141_outside s1 o p f u r) as (s2 & A1 & A2 & A3 & A4 & A5); auto.
  - lia.
  - rewrite S1, U, B by lia. exact Gf.
  - exists s2. parts; auto; [congruence |]. intros k Hk. rewrite A5 by lia. now apply B.
Qed.
(** A property that can only be written cannot be written through [this]. *)
Theorem C141_write_only_refuted : forall s o p, p_get p = None -> set_this_prop s o p = Stop s.
Proof. intros s o p G. unfold set_this_prop. now rewrite G. Qed.
(** Nor one that reads as an object of a class. *)
Theorem C141_object_property_refuted : forall s o p g u v,
  err s = false -> p_get p = Some g -> f_params g = O -> f_locals g = O -> Gives g (us s) (Some o) [] u v ->
  class_object u v = true -> exists s', set_this_prop s o p = Stop s'.
Proof.
  intros s o p g u v E G Pg Lg Gg Co. unfold set_this_prop. rewrite G.
  destruct (inner_gives s (Some o) g false u v E) as (s1 & I & U & E1 & S1 & B & R & _).
  { rewrite Pg. exact Gg. }
  rewrite I, S1, R, U, Co by auto. eauto.
Qed.
(** And the getter runs, with its effects, before the setter. *)
Theorem C141_getter_runs_refuted : forall s o p f g v u1 u r,
  err s = false -> (1 <= sp s)%nat -> p_set p ASet = Some f -> f_params f = 1%nat ->
  p_get p = Some g -> f_params g = O -> f_locals g = O -> Gives g (us s) (Some o) [] u1 v ->
  class_object u1 v = false ->
  Gives f u1 (Some o) [mem s (sp s - 1)%nat] u r ->
  exists s', set_this_prop s o p = Go s' /\ us s' = u.
Proof.
  intros s o p f g v u1 u r E Sp F P G Pg Lg Gg Co Gf. unfold set_this_prop. rewrite G.
  destruct (inner_gives s (Some o) g false u1 v E) as (s1 & I & U & E1 & S1 & B & R & _).
  { rewrite Pg. exact Gg. }
  rewrite I, S1, R, U, Co by auto.
  destruct (C141_outside s1 o p f u r) as (s2 & A1 & A2 & _); auto.
  - lia.
  - rewrite S1, U, B by lia. exact Gf.
  - eauto.
Qed.
Example C141_case : exists p q s1 s2,
  find_prop Num "size" = Some p /\ find_prop Num "sink" = Some q /\
  set_prop vm0 100 q = Go s1 /\ us s1 = say (set_fld usr0 100 "n" (num 9)) (num 9) /\
  set_this_prop vm0 100 q = Stop vm0 /\
  set_this_prop vm0 100 p = Go s2 /\ us s2 = say (set_fld usr0 100 "n" (num 9)) (num 9).
Proof.
  destruct (C141_outside vm0 100 (Prop_ None (put aop_eq_dec (fun _ => None) ASet f_set) (fun _ => None)) f_set
    (say (set_fld usr0 100 "n" (num 9)) (num 9)) undef) as (s1 & A & B & _); try reflexivity; [cbn; lia | now apply Gives_end |].
  destruct (C141_inside_partial vm0 100 (some_prop (find_prop Num "size")) f_set f_get (num 5)
    (say (set_fld usr0 100 "n" (num 9)) (num 9)) undef) as (s2 & C & D & _); try reflexivity;
    [cbn; lia | now apply Gives_ret with (l := []) | now apply Gives_end |].
  eexists _, _, s1, s2. split; [reflexivity |]. split; [reflexivity |]. parts; auto.
Qed.

(** ** C142: an error in a setter stops the program *)
(** It does not: the instructions after the assignment run. *)
Theorem C142_setter_error_refuted : forall s o p f rest,
  (1 <= sp s)%nat -> p_set p ASet = Some f -> f_params f = 1%nat ->
  Fails f (us s) (Some o) [mem s (sp s - 1)%nat] ->
  exists s', us s' = fst (f_body f (us s) (Some o) [mem s (sp s - 1)%nat]) /\ sp s' = sp s /\ err s' = true /\
    (forall k, (k <= sp s)%nat -> mem s' k = mem s k) /\
    run ((fun s => set_prop s o p) :: rest) s = run rest s'.
Proof.
  intros s o p f rest Sp F P Fl.
  destruct (run_setter_fails s o f (mem s (sp s - 1)%nat) P Fl) as (A & B & C & D).
  eexists. parts; [exact A | exact B | exact C | exact D |]. cbn [run]. unfold set_prop. now rewrite F.
Qed.
(** An error in a getter, in the function of a compound assignment or an increment, or in an
    operator function stops it at once. *)
Theorem C142_other_errors_partial : forall ct s rest,
  (forall o p g, p_get p = Some g -> f_params g = O -> Fails g (us s) (Some o) [] ->
     exists s', run ((fun s => get_prop s o p) :: rest) s = Stop s') /\
  (forall o p g a mp, p_set p a = Some g -> f_params g = 1%nat -> (1 <= sp s)%nat ->
     Fails g (us s) (Some o) [mem s (sp s - 1)%nat] ->
     exists s', run ((fun s => set_op ct s a (TProp o p) mp) :: rest) s = Stop s') /\
  (forall o p g i, p_inc p i = Some g -> f_params g = O -> Fails g (us s) (Some o) [] ->
     exists s', run ((fun s => inc_op ct s i (TProp o p)) :: rest) s = Stop s') /\
  (forall m ob g l1 l2, l2 <> LStk (sp s) -> Operator ct (us s) ob m g -> f_params g = 2%nat ->
     Fails g (us s) None [rd s l1; rd s l2] ->
     exists s', run ((fun s => run_meta ct s m ob true l1 l2) :: rest) s = Stop s').
Proof.
  intros ct s rest. parts.
  - intros o p g G P F. exists s. cbn. unfold get_prop. rewrite G, inner_fails; auto. now rewrite P.
  - intros o p g a mp G P Sp F. cbn. unfold set_op. destruct (_ || _); [eauto |]. rewrite G, inner_fails; [eauto |].
    rewrite P. exact F.
  - intros o p g i G P F. exists s. cbn. unfold inc_op. rewrite G, inner_fails; auto. now rewrite P.
  - intros m ob g l1 l2 N (c & C & Fm & St) P F. apply class_at_of in C. cbn [run]. unfold run_meta. rewrite C, Fm, St. cbn [xorb].
    assert (R2 : rd (push s (rd s l1)) l2 = rd s l2).
    { destruct l2; cbn; auto. unfold upd. destruct (Nat.eqb_spec n (sp s)); congruence. }
    rewrite R2.
    destruct (exec_fails (push (push s (rd s l1)) (rd s l2)) None g (sp s)) as (X & _).
    { rewrite P, args_two. exact F. }
    destruct (Nat.eqb _ _); [eauto |]. cbn [err push with_mem]. rewrite X. eauto.
Qed.
(** [x.size = true; x.size = 3]: the first is an error, the second runs *)
Example C142_case : exists p s',
  find_prop Num "size" = Some p /\
  run [(fun s => set_prop s 100 p); (fun s => set_prop (with_mem s (upd (mem s) 4 (num 3)) 5) 100 p)]
      (with_mem vm0 (upd (mem vm0) 4 (Stk 1 P_BOOL)) 5) = Go s' /\
  out (us s') = [num 3] /\ err s' = true.
Proof. eexists _, _. split; [reflexivity |]. split; [reflexivity |]. split; reflexivity. Qed.

Print Assumptions C129_getter_value_partial.
Print Assumptions C129_getter_with_variable_refuted.
Print Assumptions C129_compound_value_partial.
Print Assumptions C129_compound_with_variable_refuted.
Print Assumptions C130_increment_value.
Print Assumptions C131_operands_partial.
Print Assumptions C131_two_properties_refuted.
Print Assumptions C131_left_read_last_refuted.
Print Assumptions C132_comparison_partial.
Print Assumptions C132_constant_on_the_right_refuted.
Print Assumptions C133_arithmetic.
Print Assumptions C133_which_function.
Print Assumptions C133_unary.
Print Assumptions C133_which_unary.
Print Assumptions C134_left_class_only_refuted.
Print Assumptions C134_operator_used_partial.
Print Assumptions C135_operators_inherited.
Print Assumptions C135_operators_apply.
Print Assumptions C136_own_setters_partial.
Print Assumptions C136_assignment_calls_partial.
Print Assumptions C136_compound_calls_partial.
Print Assumptions C136_derived_object_refuted.
Print Assumptions C137_properties.
Print Assumptions C137_property_functions.
Print Assumptions C138_redefinition_refused_refuted.
Print Assumptions C138_new_property_partial.
Print Assumptions C139_declared_once.
Print Assumptions C139_arity.
Print Assumptions C140_stale_parameters_refuted.
Print Assumptions C140_two_parameters_partial.
Print Assumptions C141_outside.
Print Assumptions C141_inside_partial.
Print Assumptions C141_write_only_refuted.
Print Assumptions C141_object_property_refuted.
Print Assumptions C141_getter_runs_refuted.
Print Assumptions C142_setter_error_refuted.
Print Assumptions C142_other_errors_partial.
Print Assumptions C139_signatures.
