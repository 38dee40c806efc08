(** Properties of compiled expressions (C31-C36). *)
From Coq Require Import ZArith List Bool Lia.
From Coq Require Import SpecFloat.
From Verif Require Import Base FloatModel FloatBits ValueModel ExprModel VmModel ExprSpec ExprTree ExprShape ExprProofs
  FoldModel FoldSpec FoldProofs ExprZs.
Import ListNotations.
Local Open Scope Z_scope.

(** What the theorems need of the behaviour of values: constants are folded as the
    operator does for the pairs [good] accepts, and true and false are booleans.
    [ExprZs] shows both for the operators of the language. *)
Definition sound_fold (S : Sem) (foldk : ExprModel.bop -> const -> const -> fold)
    (good : ExprModel.bop -> const -> const -> bool) : Prop :=
  (forall o k1 k2 k, good o k1 k2 = true -> foldk o k1 k2 = FoldK k ->
     forall w, binop S o (kval S k1) (kval S k2) w = EOk (kval S k) w) /\
  (forall b, vbool S (kval S (KBool b)) = Some b).

Theorem C35_language_folds_soundly :
  forall itext ftext otext has_char has_str,
  sound_fold (ZSem itext ftext otext has_char has_str)
             (foldk itext ftext has_char has_str) (good itext ftext).
Proof. intros. split; [apply z_good | apply z_bool]. Qed.
Print Assumptions C35_language_folds_soundly.

(** ** C31: grouping by priority. *)

(** The grouping of a token list by the priority table, left-associatively inside a
    level, exists and is unique. *)
Theorem C31_grouping_unique : forall A (hd : A) tl,
  exists! t, by_priority t /\ first_leaf t = hd /\ rest_toks t = tl.
Proof.
  intros A hd tl. exists (tree_of hd tl). split; [apply tree_of_spec|].
  intros t (H1 & H2 & H3). destruct (tree_of_spec hd tl) as (P & E1 & E2).
  apply tree_unique; congruence || auto.
Qed.
Print Assumptions C31_grouping_unique.

(** The code of operators over operands computes the value of that grouping.
    Missing for "every expression": parenthesised operands ending in [&&], [||], [?:]
    next to another operator, and constant pairs outside [good] (see C32, C35). *)
Theorem C31_priority_partial :
  forall S foldk good, sound_fold S foldk good ->
  forall hd tl c, ok_expr foldk good (Expr TgNil hd tl TNone) = true ->
  comp_expr foldk [] (Expr TgNil hd tl TNone) = Some c ->
  forall T, by_priority T -> first_leaf T = (eval_operand S hd, type_leaf hd) ->
  rest_toks T = ops_den S tl ->
  computes S c (eval_tree S T).
Proof.
  intros S foldk good (H1 & H2) hd tl c Hok E T P E1 E2.
  assert (HT : T = tree_of (eval_operand S hd, type_leaf hd) (ops_den S tl)).
  { destruct (tree_of_spec (eval_operand S hd, type_leaf hd) (ops_den S tl)) as (Q & F1 & F2).
    apply tree_unique; congruence || auto. }
  pose proof (expr_correct S foldk good H1 H2 _ _ Hok E) as Hc.
  subst T. intros C p s w sc HC. specialize (Hc C p s w sc HC).
  change (eval_expr S (Expr TgNil hd tl TNone) w) with
    (ebind (eval_tree S (tree_of (eval_operand S hd, type_leaf hd) (ops_den S tl)) w)
       (fun v w1 => ebind (EOk v w1) (fun v2 w2 => EOk v2 w2))) in Hc.
  destruct (eval_tree S _ w); exact Hc.
Qed.
Print Assumptions C31_priority_partial.

(** Operators over variables: every expression, no further condition. *)
Fixpoint var_ops (l : list (ExprModel.bop * var)) : ops :=
  match l with [] => ONil | (o, x) :: l' => OCons o (AVar x) (var_ops l') end.

Lemma vars_ok_tree : forall foldk good (t : tree info),
  all_ops (fun o => o <> O_INST) t -> leaves (fun i => i = Info false false None None true) t ->
  ok_tree foldk good t = true.
Proof.
  induction t as [i | o l IHl r IHr]; cbn [all_ops leaves]; intros Ho Hl.
  - subst i. reflexivity.
  - destruct Ho as (Ho & Hol & Hor), Hl as (Hl & Hr).
    assert (N : forall u, leaves (fun i => i = Info false false None None true) u ->
      leaf_jump u = false /\ leaf_tern u = false /\ const_tree foldk (tmap i_const u) = None).
    { clear. induction u as [i | o l IHl r IHr]; cbn [leaves].
      - intros ->. auto.
      - intros (Hl & Hr). repeat split; auto. cbn [tmap const_tree].
        destruct (IHl Hl) as (_ & _ & ->). destruct (is_logic o); [reflexivity|]. destruct o; reflexivity. }
    destruct (N l Hl) as (N1 & N2 & N3), (N r Hr) as (N4 & N5 & N6).
    cbn [ok_tree]. rewrite IHl, IHr, N1, N5, N3 by auto. destruct o; try reflexivity. congruence.
Qed.

Lemma var_ops_infos : forall foldk good l,
  ok_ops foldk good (var_ops l) = map (fun p => (fst p, (fun _ => Info false false None None true) (snd p))) l.
Proof. induction l as [|(o, x) l IH]; [reflexivity|]. cbn in *. rewrite IH. reflexivity. Qed.

Lemma var_ops_den : forall S l, ops_den S (var_ops l) =
  map (fun p => (fst p, (fun x => (eval_operand S (AVar x), None)) (snd p))) l.
Proof. induction l as [|(o, x) l IH]; [reflexivity|]. cbn [var_ops ops_den map fst snd]. rewrite IH. reflexivity. Qed.

Lemma tree_of_ops : forall A (P : ExprModel.bop -> Prop) (t : tree A),
  Forall P (map fst (rest_toks t)) -> all_ops P t.
Proof.
  induction t as [|o l IHl r IHr]; cbn; [auto|]. intro H. rewrite map_app in H. apply Forall_app in H.
  destruct H as (Hl & Hr). cbn in Hr. inversion Hr; subst. auto.
Qed.

Lemma tmap_leaves : forall A B (b : B) (t : tree A), leaves (fun i => i = b) (tmap (fun _ => b) t).
Proof. induction t; cbn; auto. Qed.

Theorem C31_priority_of_variables :
  forall S foldk good, sound_fold S foldk good ->
  forall x l c, Forall (fun p => fst p <> O_INST) l ->
  comp_expr foldk [] (Expr TgNil (AVar x) (var_ops l) TNone) = Some c ->
  forall T, by_priority T -> first_leaf T = x -> rest_toks T = l ->
  computes S c (eval_tree S (tmap (fun x => (fun w => EOk (vget S w x) w, None)) T)).
Proof.
  intros S foldk good HS x l c Hl E T P E1 E2.
  eapply C31_priority_partial; eauto.
  - change (true && true &&
      ok_tree foldk good (tree_of (Info false false None None true) (ok_ops foldk good (var_ops l))) = true).
    rewrite var_ops_infos.
    rewrite (tree_of_tmap _ _ (fun _ => Info false false None None true) x l). cbn [andb].
    apply vars_ok_tree; [|apply tmap_leaves]. apply tmap_all. apply tree_of_ops.
    destruct (tree_of_spec x l) as (_ & _ & ->). clear - Hl. induction Hl; cbn; auto.
  - apply tmap_priority. exact P.
  - rewrite tmap_first. subst x. reflexivity.
  - rewrite tmap_rest, var_ops_den. subst l. reflexivity.
Qed.
Print Assumptions C31_priority_of_variables.

(** Compilation succeeds unless folding two constants fails. *)
Section Total.
Variable foldk : ExprModel.bop -> const -> const -> fold.
Hypothesis Ht : forall o k1 k2, exists k, foldk o k1 k2 = FoldK k.

Lemma optimize_total o c : optimize foldk o c <> OptErr.
Proof.
  unfold optimize. destruct (rev c) as [|i2 [|i1 rest]]; try discriminate.
  assert (Hf : forall k1 k2, foldk o k1 k2 <> FoldErr /\ foldk o k1 k2 <> FoldUB).
  { intros. destruct (Ht o k1 k2) as (k & ->). split; discriminate. }
  destruct o; try discriminate;
    (destruct (is_const i1) as [k1|], (is_const i2) as [k2|];
     [destruct (Hf k1 k2); destruct (foldk _ k1 k2); congruence | | |];
     destruct (get_register i1) as [(?, ?)|], (get_register i2) as [(?, ?)|]; discriminate).
Qed.

Lemma ctree_total t : forall acc, exists c, ctree foldk acc t = Some c.
Proof.
  induction t as [c | o l IHl r IHr]; intro acc; cbn [ctree].
  - eauto.
  - destruct (IHl acc) as (acc1 & ->).
    assert (Hp : exists c, match ctree foldk acc1 r with
        | None => None
        | Some acc2 => match optimize foldk o acc2 with
            | OptErr => None | OptNone => Some (acc2 ++ [Bin o (-1) (Raw (-1)) 0]) | OptTo acc3 => Some acc3 end
        end = Some c).
    { destruct (IHr acc1) as (acc2 & ->). pose proof (optimize_total o acc2).
      destruct (optimize foldk o acc2); [congruence | eauto | eauto]. }
    destruct (two_last_const acc1); [exact Hp|]. destruct o; auto.
Qed.

Lemma syntax_total :
  (forall a, exists c, comp_operand foldk a = Some c) /\
  (forall e acc, exists c, comp_expr foldk acc e = Some c) /\
  (forall es, exists c, comp_args foldk es = Some c) /\
  (forall os, exists c, comp_ops foldk os = Some c) /\
  (forall tn acc, exists c, comp_tern foldk acc tn = Some c) /\
  (forall ts, exists c, comp_targets foldk ts = Some c) /\
  (forall t, exists c, comp_target foldk t = Some c).
Proof.
  apply syntax_ind; intros; try (eexists; reflexivity).
  - rewrite comp_incdec_eq. destruct H as (c & ->). eauto.
  - rewrite comp_prim_eq. destruct H as (c & ->). eauto.
  - rewrite comp_paren_eq. auto.
  - rewrite comp_un_eq. destruct H as (c & ->). eauto.
  - rewrite comp_expr_eq. destruct H as (c1 & ->), H0 as (c2 & ->), H1 as (c3 & ->).
    rewrite ctoks_tree_of. destruct (ctree_total (tree_of c2 c3) acc) as (c4 & ->). cbv zeta.
    match goal with |- context [comp_tern foldk ?a tn] => destruct (H2 a) as (c5 & ->) end. eauto.
  - rewrite comp_args_eq. destruct (H []) as (c & ->), H0 as (c' & ->). eauto.
  - rewrite comp_ops_eq. destruct H as (c & ->), H0 as (c' & ->). eauto.
  - rewrite comp_tern_eq.
    match goal with |- context [comp_expr foldk ?a e1] => destruct (H a) as (c & ->) end.
    match goal with |- context [comp_expr foldk ?a e2] => destruct (H0 a) as (c' & ->) end. eauto.
  - rewrite comp_targets_eq. destruct H as (c & ->), H0 as (c' & ->). eauto.
  - rewrite comp_target_eq. destruct H as (c & ->). eauto.
Qed.
End Total.

Theorem C31_compiles : forall foldk, (forall o k1 k2, exists k, foldk o k1 k2 = FoldK k) ->
  forall e, exists c, comp_expr foldk [] e = Some c.
Proof. intros foldk Ht e. apply (syntax_total foldk Ht). Qed.
Print Assumptions C31_compiles.

(** A machine for the examples: local variables 0, 1, 2, ... hold the listed values. *)
Definition Zx : Sem := ZSem (fun _ => []) (fun _ => []) (fun _ => []) (fun _ _ => false) (fun _ _ => false).
Definition foldx := foldk (fun _ => []) (fun _ => []) (fun _ _ => false) (fun _ _ => false).
Definition goodx := good (fun _ => []) (fun _ => []).
Definition world (l : list zval) : zworld :=
  ZW (fun x => match x with Local i => nth i l ZU | _ => ZU end) false.
Definition run (e : expr) (w : zworld) : option (list zval) :=
  match comp_expr foldx [] e with
  | Some c =>
      match exec Zx (3 * length c) c (St Zx 0 [] w []) with
      | Next _ s => if Nat.eqb (pc Zx s) (length c)
                    then Some (map (fun x => match x with inl v => v | inr _ => ZU end) (sk Zx s)) else None
      | _ => None
      end
  | None => None
  end.
Definition a_ := AVar (Local 0). Definition b_ := AVar (Local 1). Definition c_ := AVar (Local 2).
Definition e1_ (a : operand) := Expr TgNil a ONil TNone.

(** a - b * 2 - c *)
Definition C31_e := Expr TgNil a_ (OCons O_SUB b_ (OCons O_MUL (AConst (KInt 2)) (OCons O_SUB c_ ONil))) TNone.
Example C31_case : ok_expr foldx goodx C31_e = true /\ run C31_e (world [ZI 20; ZI 3; ZI 4]) = Some [ZI 10].
Proof. split; reflexivity. Qed.

(** ** C32: parentheses.  A parenthesised operand contributes the value of the
    expression inside, whatever operators surround it. *)
Theorem C32_parentheses_partial :
  forall S foldk good, sound_fold S foldk good ->
  forall e c, ok_expr foldk good e = true -> comp_operand foldk (AParen e) = Some c ->
  computes S c (eval_expr S e).
Proof. intros S foldk good (H1 & H2) e c Hok E. exact (expr_correct S foldk good H1 H2 e c Hok E). Qed.
Print Assumptions C32_parentheses_partial.

(** The enclosing operator sees only that value. *)
Theorem C32_parentheses_under_operator_partial :
  forall S foldk good, sound_fold S foldk good ->
  forall o e1 e2 c, ok_expr foldk good (Expr TgNil (AParen e1) (OCons o (AParen e2) ONil) TNone) = true ->
  comp_expr foldk [] (Expr TgNil (AParen e1) (OCons o (AParen e2) ONil) TNone) = Some c ->
  is_logic o = false -> o <> O_INST ->
  computes S c (fun w => ebind (eval_expr S e1 w) (fun a w1 =>
                         ebind (eval_expr S e2 w1) (fun b w2 => binop S o a b w2))).
Proof.
  intros S foldk good HS o e1 e2 c Hok E Hl Hi.
  assert (P : by_priority (Node o (Leaf (eval_operand S (AParen e1), @None Z)) (Leaf (eval_operand S (AParen e2), @None Z))))
    by (cbn; auto).
  pose proof (C31_priority_partial S foldk good HS _ _ c Hok E _ P eq_refl eq_refl) as Hc.
  intros C p s w sc HC. specialize (Hc C p s w sc HC). destruct o; try discriminate; try congruence; exact Hc.
Qed.
Print Assumptions C32_parentheses_under_operator_partial.
(** a * (b - c) *)
Definition C32_e := Expr TgNil a_ (OCons O_MUL (AParen (Expr TgNil b_ (OCons O_SUB c_ ONil) TNone)) ONil) TNone.
Example C32_case : ok_expr foldx goodx C32_e = true /\ run C32_e (world [ZI 5; ZI 7; ZI 4]) = Some [ZI 15].
Proof. split; reflexivity. Qed.

(** [(a && b) == c] is compiled wrongly: when a is true the comparison is jumped over
    and the value is that of b, whatever c is. *)
Definition C32_and_e :=
  Expr TgNil (AParen (Expr TgNil a_ (OCons O_LAND b_ ONil) TNone)) (OCons O_EQ c_ ONil) TNone.
Theorem C32_logic_then_operator_refuted :
  forall foldk, exists c, comp_expr foldk [] C32_and_e = Some c /\
  forall S s w sc, vbool S (vget S w (Local 0)) = Some true ->
  steps S c (St S 0 s w sc) (St S (length c) (inl (vget S w (Local 1)) :: s) w sc) /\
  eval_expr S C32_and_e w = binop S O_EQ (vget S w (Local 1)) (vget S w (Local 2)) w.
Proof.
  intro foldk. eexists. split; [reflexivity|]. intros S s w sc Hb. split.
  - eapply steps_cons; [reflexivity|].
    eapply steps_cons; [cbn; rewrite Hb; reflexivity|].
    eapply steps_cons; [reflexivity|].
    eapply steps_cons; [reflexivity|]. constructor.
  - cbn. unfold truth. rewrite Hb. cbn. destruct (binop S O_EQ _ _ w); reflexivity.
Qed.
Print Assumptions C32_logic_then_operator_refuted.
Example C32_logic_case : run C32_and_e (world [ZB true; ZB true; ZB false]) = Some [ZB true].
Proof. reflexivity. Qed.

(** [x + (a ? b : c)] is compiled wrongly: when a is true the addition is jumped over and
    both operands stay on the stack. *)
Definition C34_right_e :=
  Expr TgNil (AVar (Local 3))
    (OCons O_ADD (AParen (Expr TgNil a_ ONil (TSome (e1_ b_) (e1_ c_)))) ONil) TNone.
Theorem C34_ternary_as_right_operand_refuted :
  forall foldk, exists c, comp_expr foldk [] C34_right_e = Some c /\
  forall S s w sc, vbool S (vget S w (Local 0)) = Some true ->
  steps S c (St S 0 s w sc)
            (St S (length c) (inl (vget S w (Local 1)) :: inl (vget S w (Local 3)) :: s) w sc) /\
  eval_expr S C34_right_e w = binop S O_ADD (vget S w (Local 3)) (vget S w (Local 1)) w.
Proof.
  intro foldk. eexists. split; [reflexivity|]. intros S s w sc Hb. split.
  - eapply steps_cons; [reflexivity|]. eapply steps_cons; [reflexivity|].
    eapply steps_cons; [cbn; rewrite Hb; reflexivity|].
    eapply steps_cons; [reflexivity|]. eapply steps_cons; [reflexivity|]. constructor.
  - cbn. unfold truth. rewrite Hb. cbn. destruct (binop S O_ADD _ _ w); reflexivity.
Qed.
Print Assumptions C34_ternary_as_right_operand_refuted.

(** [(a ? b : c) + x] too: the value is that of b alone. *)
Definition C34_left_e :=
  Expr TgNil (AParen (Expr TgNil a_ ONil (TSome (e1_ b_) (e1_ c_)))) (OCons O_ADD (AVar (Local 3)) ONil) TNone.
Theorem C34_ternary_as_left_operand_refuted :
  forall foldk, exists c, comp_expr foldk [] C34_left_e = Some c /\
  forall S s w sc, vbool S (vget S w (Local 0)) = Some true ->
  steps S c (St S 0 s w sc) (St S (length c) (inl (vget S w (Local 1)) :: s) w sc) /\
  eval_expr S C34_left_e w = binop S O_ADD (vget S w (Local 1)) (vget S w (Local 3)) w.
Proof.
  intro foldk. eexists. split; [reflexivity|]. intros S s w sc Hb. split.
  - eapply steps_cons; [reflexivity|].
    eapply steps_cons; [cbn; rewrite Hb; reflexivity|].
    eapply steps_cons; [reflexivity|]. eapply steps_cons; [reflexivity|]. constructor.
  - cbn. unfold truth. rewrite Hb. cbn. destruct (binop S O_ADD _ _ w); reflexivity.
Qed.
Print Assumptions C34_ternary_as_left_operand_refuted.
Example C34_left_case : run C34_left_e (world [ZB true; ZI 1; ZI 2; ZI 10]) = Some [ZI 1].
Proof. reflexivity. Qed.

(** ** C33: short circuit.  [S] is any behaviour of values and world, so the world reached
    shows which operands were evaluated: the right one only if needed. *)
Theorem C33_and_partial :
  forall S foldk good, sound_fold S foldk good ->
  forall a b c, ok_expr foldk good (Expr TgNil a (OCons O_LAND b ONil) TNone) = true ->
  comp_expr foldk [] (Expr TgNil a (OCons O_LAND b ONil) TNone) = Some c ->
  computes S c (fun w =>
    match eval_operand S a w with
    | EErr w1 => EErr w1
    | EOk v w1 =>
        match vbool S v with
        | Some true => eval_operand S b w1
        | Some false => EOk (kval S (KBool false)) w1
        | None => EErr w1
        end
    end).
Proof.
  intros S foldk good HS a b c Hok E.
  assert (P : by_priority (Node O_LAND (Leaf (eval_operand S a, type_leaf a)) (Leaf (eval_operand S b, type_leaf b))))
    by (cbn; auto).
  pose proof (C31_priority_partial S foldk good HS _ _ c Hok E _ P eq_refl eq_refl) as Hc.
  intros C p s w sc HC. specialize (Hc C p s w sc HC). cbn [eval_tree fst] in Hc. unfold ebind, truth in Hc.
  destruct (eval_operand S a w) as [v w1 | w1]; [|exact Hc].
  destruct (vbool S v) as [[|]|]; exact Hc.
Qed.
Print Assumptions C33_and_partial.

Theorem C33_or_partial :
  forall S foldk good, sound_fold S foldk good ->
  forall a b c, ok_expr foldk good (Expr TgNil a (OCons O_LOR b ONil) TNone) = true ->
  comp_expr foldk [] (Expr TgNil a (OCons O_LOR b ONil) TNone) = Some c ->
  computes S c (fun w =>
    match eval_operand S a w with
    | EErr w1 => EErr w1
    | EOk v w1 =>
        match vbool S v with
        | Some false => eval_operand S b w1
        | Some true => EOk (kval S (KBool true)) w1
        | None => EErr w1
        end
    end).
Proof.
  intros S foldk good HS a b c Hok E.
  assert (P : by_priority (Node O_LOR (Leaf (eval_operand S a, type_leaf a)) (Leaf (eval_operand S b, type_leaf b))))
    by (cbn; auto).
  pose proof (C31_priority_partial S foldk good HS _ _ c Hok E _ P eq_refl eq_refl) as Hc.
  intros C p s w sc HC. specialize (Hc C p s w sc HC). cbn [eval_tree fst] in Hc. unfold ebind, truth in Hc.
  destruct (eval_operand S a w) as [v w1 | w1]; [|exact Hc].
  destruct (vbool S v) as [[|]|]; exact Hc.
Qed.
Print Assumptions C33_or_partial.

(** Any mix of [&&], [||] over variables, of any length: the value is that of the boolean
    formula grouped by priority, when the variables are booleans. *)
Fixpoint btree (f : var -> bool) (t : tree var) : bool :=
  match t with
  | Leaf x => f x
  | Node O_LAND l r => btree f l && btree f r
  | Node _ l r => btree f l || btree f r
  end.
Theorem C33_boolean_formula :
  forall S foldk good, sound_fold S foldk good ->
  forall x l c, Forall (fun p => is_logic (fst p) = true) l ->
  comp_expr foldk [] (Expr TgNil (AVar x) (var_ops l) TNone) = Some c ->
  forall T, by_priority T -> first_leaf T = x -> rest_toks T = l ->
  forall f w, (forall y, vget S w y = kval S (KBool (f y))) ->
  forall C p s sc, code_at C p c ->
  steps S C (St S p s w sc) (St S (p + length c) (inl (kval S (KBool (btree f T))) :: s) w sc).
Proof.
  intros S foldk good HS x l c Hl E T P E1 E2 f w Hw C p s sc HC.
  assert (Hn : Forall (fun p => fst p <> O_INST) l).
  { eapply Forall_impl; [|exact Hl]. cbn. intros q Hq Hc. rewrite Hc in Hq. discriminate. }
  pose proof (C31_priority_of_variables S foldk good HS x l c Hn E T P E1 E2 C p s w sc HC) as Hc.
  assert (Ht : eval_tree S (tmap (fun x => (fun w => EOk (vget S w x) w, None)) T) w
               = EOk (kval S (KBool (btree f T))) w).
  { subst l. destruct HS as (_ & Hb). clear - Hw Hl Hb.
    induction T as [y | o l IHl r IHr]; cbn [tmap eval_tree fst].
    - rewrite Hw. reflexivity.
    - cbn [rest_toks] in Hl. apply Forall_app in Hl as (Hl & Hr). inversion Hr; subst.
      cbn in H1. destruct o; try discriminate; rewrite IHl by auto; cbn [ebind]; unfold truth; rewrite Hb; cbn [ebind btree].
      + destruct (btree f l); cbn [orb]; [reflexivity | apply IHr; auto].
      + destruct (btree f l); cbn [andb]; [apply IHr; auto | reflexivity]. }
  rewrite Ht in Hc. exact Hc.
Qed.
Print Assumptions C33_boolean_formula.
(** a || b && c || d, and a division by zero that is never reached *)
Example C33_case :
  run (Expr TgNil a_ (OCons O_LOR b_ (OCons O_LAND c_ (OCons O_LOR (AVar (Local 3)) ONil))) TNone)
      (world [ZB false; ZB true; ZB false; ZB true]) = Some [ZB true]
  /\ run (Expr TgNil a_ (OCons O_LAND b_ (OCons O_DIV c_ (OCons O_GT b_ ONil))) TNone)
      (world [ZB false; ZI 1; ZI 0]) = Some [ZB false]
  /\ run (Expr TgNil a_ (OCons O_LAND b_ (OCons O_DIV c_ (OCons O_GT b_ ONil))) TNone)
      (world [ZB true; ZI 1; ZI 0]) = None.
Proof. repeat split. Qed.

(** ** C34: the ternary operator. *)
Theorem C34_ternary_partial :
  forall S foldk good, sound_fold S foldk good ->
  forall hd tl e1 e2 c, ok_expr foldk good (Expr TgNil hd tl (TSome e1 e2)) = true ->
  comp_expr foldk [] (Expr TgNil hd tl (TSome e1 e2)) = Some c ->
  computes S c (fun w =>
    match eval_expr S (Expr TgNil hd tl TNone) w with
    | EErr w1 => EErr w1
    | EOk v w1 =>
        match vbool S v with
        | Some true => eval_expr S e1 w1
        | Some false => eval_expr S e2 w1
        | None => EErr w1
        end
    end).
Proof.
  intros S foldk good (H1 & H2) hd tl e1 e2 c Hok E.
  pose proof (expr_correct S foldk good H1 H2 _ _ Hok E) as Hc.
  intros C p s w sc HC. specialize (Hc C p s w sc HC).
  change (eval_expr S (Expr TgNil hd tl TNone) w) with
    (ebind (eval_tree S (tree_of (eval_operand S hd, type_leaf hd) (ops_den S tl)) w)
       (fun v w1 => ebind (EOk v w1) (fun v2 w2 => EOk v2 w2))).
  change (eval_expr S (Expr TgNil hd tl (TSome e1 e2)) w) with
    (ebind (eval_tree S (tree_of (eval_operand S hd, type_leaf hd) (ops_den S tl)) w)
       (fun v w1 => ebind (ebind (truth S v w1) (fun b w2 => if b then eval_expr S e1 w2 else eval_expr S e2 w2))
                          (fun v2 w2 => EOk v2 w2))) in Hc.
  destruct (eval_tree S _ w) as [v w1 | w1]; cbn [ebind] in *; [|exact Hc].
  unfold truth in Hc. destruct (vbool S v) as [[|]|]; cbn [ebind] in Hc.
  - destruct (eval_expr S e1 w1); exact Hc.
  - destruct (eval_expr S e2 w1); exact Hc.
  - exact Hc.
Qed.
Print Assumptions C34_ternary_partial.
(** a > 2 ? b : (c ? 1 : 2) *)
Definition C34_e :=
  Expr TgNil a_ (OCons O_GT (AConst (KInt 2)) ONil)
    (TSome (e1_ b_) (Expr TgNil c_ ONil (TSome (e1_ (AConst (KInt 1))) (e1_ (AConst (KInt 2)))))).
Example C34_case : ok_expr foldx goodx C34_e = true /\
  run C34_e (world [ZI 3; ZI 7; ZB false]) = Some [ZI 7] /\
  run C34_e (world [ZI 1; ZI 7; ZB false]) = Some [ZI 2] /\
  run C34_e (world [ZI 1; ZI 7; ZB true]) = Some [ZI 1].
Proof. repeat split. Qed.

(** ** C35: constant folding. *)
Section Folding.
Variable itext : Z -> list Z.
Variable ftext : f64 -> list Z.
Variable has_char : list Z -> Z -> bool.
Variable has_str : list Z -> list Z -> bool.
Variable h : heap.
Variable text : stk -> list Z.
Hypothesis Ht : same_text itext ftext text.
Notation foldk := (foldk itext ftext has_char has_str).
Notation run_op := (run_op has_char has_str h text).
Notation good := (good itext ftext).

Theorem C35_folding_agrees_partial : forall o k1 k2 k s1 s2,
  good o k1 k2 = true -> foldk o k1 k2 = FoldK k ->
  kelem h k1 s1 -> kelem h k2 s2 -> kres h k (run_op o s1 s2).
Proof. exact (fold_agrees itext ftext has_char has_str h text Ht). Qed.

Theorem C35_compile_error_is_runtime_error : forall o k1 k2 s1 s2,
  o <> O_INST -> foldk o k1 k2 = FoldErr ->
  kelem h k1 s1 -> kelem h k2 s2 -> no_value (run_op o s1 s2).
Proof. exact (fold_error itext ftext has_char has_str h text). Qed.

(** integer compared with float: always folded to false *)
Definition cop (c : cmp) : ExprModel.bop :=
  match c with CEq => O_EQ | CNe => O_NE | CLt => O_LT | CLe => O_LTE | CGt => O_GT | CGe => O_GTE end.
Theorem C35_int_float_comparison_refuted : forall c z f s1 s2,
  kelem h (KInt z) s1 -> kelem h (KFloat f) s2 ->
  foldk (cop c) (KInt z) (KFloat f) = FoldK (KBool false) /\
  run_op (cop c) s1 s2 = push_bool (cmpF c (of_int z) (dec (enc f))).
Proof. intros c z f s1 s2 -> ->. destruct c; split; reflexivity. Qed.

(** integer divided by a float: bits are misread; 1 / 2.0 is folded to 0.0 *)
Theorem C35_int_float_division_refuted : forall s1 s2,
  kelem h (KInt 1) s1 -> kelem h (KFloat (of_int 2)) s2 ->
  foldk O_DIV (KInt 1) (KFloat (of_int 2)) = FoldK (KFloat (S754_zero false)) /\
  run_op O_DIV s1 s2 = push_float (fdiv (of_int 1) (of_int 2)) /\
  feqb (fdiv (of_int 1) (of_int 2)) (S754_zero false) = false.
Proof. intros s1 s2 -> ->. repeat split; reflexivity. Qed.

(** division by the constant -0.0 is folded, although it is an error at run time *)
Theorem C35_minus_zero_refuted : forall f s1 s2,
  kelem h (KFloat f) s1 -> kelem h (KFloat (S754_zero true)) s2 ->
  foldk O_DIV (KFloat f) (KFloat (S754_zero true)) = FoldK (KFloat (fdiv (rd f) (S754_zero true))) /\
  run_op O_DIV s1 s2 = Fail.
Proof.
  intros f s1 s2 -> ->. split; [reflexivity|]. reflexivity.
Qed.

(** a string and the same string continued by a character below the quote (34), such as a
    space: folded as "not less" *)
Lemma strcmp_prefix a x t : nonulb a = true -> x <> 0 -> c_strcmp a (a ++ x :: t) = -1.
Proof.
  intros Ha Hx. rewrite <- (app_nil_r a) at 1. rewrite strcmp_app_same by auto. cbn.
  destruct (Z.eqb_spec x 0); [contradiction | reflexivity].
Qed.
Theorem C35_string_order_refuted : forall a x t s1 s2,
  nonulb a = true -> 0 < x < 34 ->
  kelem h (KStr a) s1 -> kelem h (KStr (a ++ x :: t)) s2 ->
  foldk O_LT (KStr a) (KStr (a ++ x :: t)) = FoldK (KBool false) /\
  run_op O_LT s1 s2 = push_bool true.
Proof.
  intros a x t [v1 p1] [v2 p2] Ha Hx (E1 & H1) (E2 & H2). cbn in *. subst p1 p2. split.
  - rewrite <- app_assoc, strcmp_app_same by auto.
    cbn [app]. unfold c_strcmp. destruct (Z.eqb_spec 34 x); [lia|]. destruct (Z.ltb_spec 34 x); [lia|]. reflexivity.
  - unfold op_cmp, obj_of. cbn [props val]. rewrite H1, H2.
    change (push_bool (cmp_strings CLt a (a ++ x :: t)) = push_bool true).
    unfold cmp_strings. rewrite strcmp_prefix by (auto; lia). reflexivity.
Qed.

(** joining constants to 4096 bytes or more overruns a buffer in the compiler, although the
    run-time operator handles any length *)
Theorem C35_long_text_refuted : forall a b s1 s2,
  nonulb a = true -> nonulb b = true -> 4096 <= Z.of_nat (length (a ++ b)) ->
  kelem h (KStr a) s1 -> kelem h (KStr b) s2 ->
  foldk O_ADD (KStr a) (KStr b) = FoldUB /\ run_op O_ADD s1 s2 = NewStr (set_text (a ++ b)).
Proof.
  intros a b s1 s2 Ha Hb Hl H1 H2. split.
  - cbn [foldk FoldModel.foldk side_text]. unfold format2. rewrite !c_str_nonul by auto.
    unfold StringModel.zlen, max_str_buffer. destruct (Z.ltb_spec (Z.of_nat (length (a ++ b))) 4096); [lia | reflexivity].
  - cbn [run_op FoldModel.run_op]. erewrite (add_str itext ftext h text Ht (KStr a) (KStr b)); eauto.
Qed.
End Folding.
Print Assumptions C35_folding_agrees_partial.
Print Assumptions C35_compile_error_is_runtime_error.
Print Assumptions C35_int_float_comparison_refuted.
Print Assumptions C35_int_float_division_refuted.
Print Assumptions C35_minus_zero_refuted.
Print Assumptions C35_string_order_refuted.
Print Assumptions C35_long_text_refuted.

Example C35_case :
  goodx O_MUL (KInt 6) (KInt 7) = true /\ foldx O_MUL (KInt 6) (KInt 7) = FoldK (KInt 42) /\
  goodx O_LT (KStr [97; 98]) (KStr [97; 99]) = true /\
  foldx O_LT (KStr [97; 98]) (KStr [97; 99]) = FoldK (KBool true) /\
  foldx O_ADD (KBool true) (KInt 1) = FoldErr /\
  cmpF CLt (of_int 1) (dec (enc (of_int 2))) = true.
Proof. repeat split; reflexivity. Qed.

(** ** C36: fused instructions.  [plain] is the code without the optimiser. *)
Definition plain (o : ExprModel.bop) (c : code) : code := c ++ [Bin o (-1) (Raw (-1)) 0].

(** What one load instruction puts on the stack. *)
Definition loads (S : Sem) (i : instr) (f : W S -> V S) : Prop :=
  (exists k, i = LoadK k /\ forall w, f w = kval S k) \/
  (exists x, i = LoadVar x /\ forall w, f w = vget S w x).

(** Two loads and an operator, not both constants: whatever the optimiser makes of them
    computes the operator on the two values, and so does the code without it. *)
Theorem C36_two_loads :
  forall S foldk o i1 i2 f1 f2 c, o <> O_INST ->
  loads S i1 f1 -> loads S i2 f2 -> is_const i1 = None \/ is_const i2 = None ->
  optimize foldk o [i1; i2] = OptTo c ->
  computes S c (fun w => binop S o (f1 w) (f2 w) w) /\
  computes S (plain o [i1; i2]) (fun w => binop S o (f1 w) (f2 w) w).
Proof.
  intros S foldk o i1 i2 f1 f2 c Ho L1 L2 Hk E.
  assert (Hl : forall i f, loads S i f -> computes S [i] (fun w => EOk (f w) w)).
  { intros i f [(k & -> & Hf) | (x & -> & Hf)] C p s w sc HC; apply code_at_cons in HC as (HN & _);
      apply steps_one; unfold step; cbn [pc wd scs sk]; rewrite HN, Hf; unfold pushed; cbn [length]; do 2 f_equal; lia. }
  assert (B : forall d : W S -> ev (W S) (V S),
     d = bind2 S o (fun w => EOk (f1 w) w) (fun w => EOk (f2 w) w) ->
     computes S c d /\ computes S (plain o [i1; i2]) d).
  { intros d ->. split.
    - assert (T : forall i f, loads S i f -> tidy [i]) by (intros; left; eauto).
      assert (Eb : bin_code foldk o ([i1] ++ [i2]) = Some c).
      { unfold bin_code. cbn [app]. rewrite E. reflexivity. }
      apply (bin_case S foldk (fun _ _ _ => false)) with (cl := [i1]) (cr := [i2]); auto; try discriminate.
      + eapply T; eauto.
      + left. eapply T; eauto.
      + intros k1 k2 E1 E2. inversion E1; inversion E2; subst. destruct Hk; discriminate.
    - unfold plain. apply (computes_bin S o [i1] [i2]); auto. }
  split; apply B; reflexivity.
Qed.
Print Assumptions C36_two_loads.
Example C36_case :
  optimize foldx O_ADD [LoadVar (Local 3); LoadVar (This 5)] = OptTo [Bin O_ADD 3 (Raw 327696) 128] /\
  optimize foldx O_LT [LoadVar (Local 0); LoadK (KInt 9)] = OptTo [Bin O_LT 0 (Cst (KInt 9)) 320] /\
  optimize foldx O_SUB [LoadK (KInt 9); LoadVar (Local 1)] = OptTo [Bin O_SUB 1 (Cst (KInt 9)) 288].
Proof. repeat split. Qed.

(** Any code followed by a register load, when that code does not itself end in a load. *)
Theorem C36_register_operand_partial :
  forall S foldk o cl i x d c, o <> O_INST ->
  computes S cl d -> (exists c' j, cl = c' ++ [j] /\ load j = false) ->
  i = LoadVar x -> optimize foldk o (cl ++ [i]) = OptTo c ->
  let r := fun w => match d w with EErr w1 => EErr w1 | EOk a w1 => binop S o a (vget S w1 x) w1 end in
  computes S c r /\ computes S (plain o (cl ++ [i])) r.
Proof.
  intros S foldk o cl i x d c Ho Hd (c' & j & -> & Hj) -> E r.
  assert (Hi : computes S [LoadVar x] (fun w => EOk (vget S w x) w)).
  { intros C p s w sc HC. apply code_at_cons in HC as (HN & _).
    apply steps_one; unfold step; cbn [pc wd scs sk]; rewrite HN; unfold pushed; cbn [length]; do 2 f_equal; lia. }
  assert (Hr : forall w, r w = bind2 S o d (fun w => EOk (vget S w x) w) w).
  { intro w. unfold r, bind2. destruct (d w); reflexivity. }
  assert (Hx : forall cc, computes S cc (bind2 S o d (fun w => EOk (vget S w x) w)) -> computes S cc r).
  { intros cc Hcc C p s w sc HC. rewrite Hr. apply Hcc, HC. }
  split; apply Hx.
  - assert (Eb : bin_code foldk o ((c' ++ [j]) ++ [LoadVar x]) = Some c).
    { unfold bin_code. rewrite E. reflexivity. }
    apply (bin_case S foldk (fun _ _ _ => false)) with (cl := c' ++ [j]) (cr := [LoadVar x]); auto; try discriminate.
    + destruct c'; discriminate.
    + right. eauto.
    + left. left. eauto.
  - unfold plain. rewrite <- app_assoc. apply (computes_bin S o (c' ++ [j]) [LoadVar x]); auto.
Qed.
Print Assumptions C36_register_operand_partial.
Example C36_register_case :
  optimize foldx O_ADD [Prim 1 0 false; LoadVar (Local 3)] = OptTo [Prim 1 0 false; Bin O_ADD 3 (Raw (-1)) 4].
Proof. reflexivity. Qed.

(** When the first of the two loads is the target of a jump the fused instruction is not the
    same: code of [(a && b) == c], with and without the optimiser. *)
Definition and_code : code :=
  [LoadVar (Local 0); Jnt NoMark 3; LoadVar (Local 1); Jmp NoMark 2; LoadK (KBool false)].
Theorem C36_fusing_jump_target_refuted :
  forall foldk, exists c, optimize foldk O_EQ (and_code ++ [LoadVar (Local 2)]) = OptTo c /\
  forall S s w sc, vbool S (vget S w (Local 0)) = Some true ->
  steps S c (St S 0 s w sc) (St S (length c) (inl (vget S w (Local 1)) :: s) w sc) /\
  forall v w', binop S O_EQ (vget S w (Local 1)) (vget S w (Local 2)) w = EOk v w' ->
  steps S (plain O_EQ (and_code ++ [LoadVar (Local 2)])) (St S 0 s w sc)
        (St S (length (plain O_EQ (and_code ++ [LoadVar (Local 2)]))) (inl v :: s) w' sc).
Proof.
  intro foldk. eexists. split; [reflexivity|]. intros S s w sc Hb. split.
  - eapply steps_cons; [reflexivity|]. eapply steps_cons; [cbn; rewrite Hb; reflexivity|].
    eapply steps_cons; [reflexivity|]. eapply steps_cons; [reflexivity|]. constructor.
  - intros v w' Ev.
    eapply steps_cons; [reflexivity|]. eapply steps_cons; [cbn; rewrite Hb; reflexivity|].
    eapply steps_cons; [reflexivity|]. eapply steps_cons; [reflexivity|]. eapply steps_cons; [reflexivity|].
    eapply steps_cons;
      [refine (eq_trans (y := of_ev S (binop S O_EQ (vget S w (Local 1)) (vget S w (Local 2)) w)
                 (fun v w' => pushed S false 6 (inl v) s w' sc)) eq_refl _); rewrite Ev; reflexivity|].
    constructor.
Qed.
Print Assumptions C36_fusing_jump_target_refuted.
