(** * Static facts about the code of expressions and statements. *)
From Coq Require Import ZArith List Bool Lia.
From Verif Require Import Base FloatModel ExprModel VmModel ExprSpec ExprTree ExprShape ExprProofs.
From Verif Require Import StmtModel StmtSpec.
Import ListNotations.
Local Open Scope Z_scope.

Scheme stmt_mind := Induction for stmt Sort Prop
with els_mind := Induction for els Sort Prop
with block_mind := Induction for block Sort Prop
with stmts_mind := Induction for stmts Sort Prop
with clauses_mind := Induction for clauses Sort Prop.
Combined Scheme stmt_syntax_ind from stmt_mind, els_mind, block_mind, stmts_mind, clauses_mind.

(** The instructions of an expression. *)
Definition exprish (i : instr) : Prop :=
  match i with
  | LoadK _ | LoadUndef | LoadNull | LoadFun _ | LoadType _ | LoadVar _ | PushVar _ => True
  | Bin _ _ _ _ | Un _ | Inst _ | LPrim _ _ => True
  | IncDec _ _ r | Asg _ r | Prim _ _ r => r = false
  | Jmp m _ => m = NoMark
  | Jnt _ _ | Jt _ _ => True
  | _ => False
  end.
Definition exprish_code (c : code) : Prop := Forall exprish c.

Lemma ex_app : forall a b, exprish_code (a ++ b) <-> exprish_code a /\ exprish_code b.
Proof. intros; apply Forall_app. Qed.

Section Shape.
Variable foldk : bop -> const -> const -> fold.

Lemma ex_snoc : forall z i, exprish_code z -> exprish i -> exprish_code (z ++ [i]).
Proof. intros z i Hz Hi. apply ex_app; split; auto. repeat constructor; auto. Qed.

Lemma bin_code_ex : forall o c c', exprish_code c -> bin_code foldk o c = Some c' -> exprish_code c'.
Proof.
  intros o c c' Hn E. unfold ExprShape.bin_code in E.
  destruct (le_lt_dec 2 (length c)) as [H2 | H2].
  - destruct (snoc2_case _ _ H2) as (l & x & y & ->). apply ex_app in Hn.
    destruct Hn as (Nl & Nxy).
    assert (Nx : exprish_code (l ++ [x])).
    { apply ex_app; split; auto. inversion Nxy; subst. constructor; auto. }
    destruct (bop_inst_dec o) as [-> | Ho].
    + rewrite optimize_inst in E. inversion E; subst. apply ex_snoc; auto. exact I.
    + rewrite optimize_pair in E by auto. unfold opt_pair in E.
      assert (Pl : exprish_code ((l ++ [x; y]) ++ [Bin o (-1) (Raw (-1)) 0])).
      { apply ex_snoc; [apply ex_app; auto | exact I]. }
      destruct (is_const x) as [k1|], (is_const y) as [k2|];
        [destruct (foldk o k1 k2); [discriminate | discriminate | inversion E; subst; apply ex_snoc; [auto | exact I]] | | |];
        destruct (get_register x) as [(r1, f1)|], (get_register y) as [(r2, f2)|];
        inversion E; subst; try exact Pl; apply ex_snoc; auto; exact I.
  - assert (E0 : ExprModel.optimize foldk o c = OptNone).
    { destruct c as [|i [|? ?]]; [| |cbn in H2; lia]; reflexivity. }
    rewrite E0 in E. inversion E; subst. apply ex_snoc; auto. exact I.
Qed.

Lemma ptree_ex : forall t c, leaves exprish_code t -> ptree foldk t = Some c -> exprish_code c.
Proof.
  induction t as [x | o l IHl r IHr]; cbn; intros c Hl E.
  - inversion E; subst; auto.
  - destruct Hl as (Hll & Hlr).
    destruct (ptree foldk l) as [cl|]; [|discriminate]. destruct (ptree foldk r) as [cr|]; [|discriminate].
    specialize (IHl _ Hll eq_refl). specialize (IHr _ Hlr eq_refl).
    assert (Nc : exprish_code (cl ++ cr)) by (apply ex_app; split; auto).
    destruct o; try (eapply bin_code_ex; eauto; fail); inversion E; subst;
      apply ex_app; (split; [auto|]); constructor; auto; exact I.
Qed.

Lemma patch_ex : forall c t f i, exprish_code c -> exprish_code (patch t f i c).
Proof.
  induction c as [|x c IH]; intros t f i H; [constructor|]. inversion H; subst.
  destruct x; try (constructor; [assumption | apply IH; assumption]);
    destruct m; cbn; constructor; try exact I; try assumption; try (apply IH; assumption).
  destruct (next_or c); exact I.
Qed.

Lemma logic_code_ex : forall c, exprish_code c -> exprish_code (logic_code c).
Proof.
  intros c H. unfold logic_code, logic_end. destruct (_ || _); [|exact H].
  cbn [firstn skipn app]. apply patch_ex. apply ex_app. split; [exact H|].
  destruct (_ && _); [repeat constructor|]. destruct (any_mark LogicOk c); repeat constructor.
Qed.

Definition Xa (a : operand) := forall c, comp_operand foldk a = Some c -> exprish_code c.
Definition Xe (e : expr) := forall c, comp_expr foldk [] e = Some c -> exprish_code c.
Definition Xes (es : exprs) := forall c, comp_args foldk es = Some c -> exprish_code c.
Definition Xo (os : ops) := forall cs, comp_ops foldk os = Some cs -> Forall (fun p => exprish_code (snd p)) cs.
Definition Xt (tn : tern) := forall c, tcode foldk tn = Some c -> exprish_code c.
Definition Xts (ts : targets) := forall c, comp_targets foldk ts = Some c -> exprish_code c.
Definition Xtg (t : target) := forall c, comp_target foldk t = Some c -> exprish_code c.

Lemma as_arg_ex : forall c, exprish_code c -> exprish_code (as_arg c).
Proof.
  intros c H. destruct c as [|[] [|? ?]]; try exact H.
  all: destruct x; try exact H; repeat constructor.
Qed.

Lemma ex_all :
  (forall a, Xa a) /\ (forall e, Xe e) /\ (forall es, Xes es) /\ (forall os, Xo os) /\
  (forall tn, Xt tn) /\ (forall ts, Xts ts) /\ (forall t, Xtg t).
Proof.
  apply syntax_ind; try (intros; intros c E; inversion E; subst; repeat constructor; fail).
  - intros p i t IH c E. rewrite comp_incdec_eq in E. destruct (comp_target foldk t) as [ct|] eqn:Et; inversion E; subst.
    apply ex_snoc; [apply (IH _ Et) | reflexivity].
  - intros p es IH c E. rewrite comp_prim_eq in E. destruct (comp_args foldk es) as [ct|] eqn:Et; inversion E; subst.
    apply ex_snoc; [apply (IH _ Et) | reflexivity].
  - intros e IH c E. exact (IH _ E).
  - intros u a IH c E. rewrite comp_un_eq in E. destruct (comp_operand foldk a) as [ct|] eqn:Et; inversion E; subst.
    apply ex_snoc; [apply (IH _ Et) | exact I].
  - intros ts Hts hd Hhd tl Htl tn Ht c E.
    destruct (comp_expr_inv _ _ _ _ _ _ E) as (cts & chd & ctl & t & ct & E1 & E2 & E3 & E4 & E5 & ->).
    apply ex_app. split.
    + apply logic_code_ex. eapply ptree_ex; [|exact E4]. apply leaves_tree_of. split.
      * apply Hhd; auto.
      * apply (Htl _ E3).
    + apply ex_app. split; [apply Ht | apply Hts]; auto.
  - intros e He es Hes c E. rewrite comp_args_eq in E.
    destruct (comp_expr foldk [] e) as [ce|] eqn:Ee; [|discriminate].
    destruct (comp_args foldk es) as [ces|] eqn:Ees; [|discriminate]. inversion E; subst.
    apply ex_app; split; [apply as_arg_ex; apply (He _ Ee) | apply (Hes _ Ees)].
  - intros o a Ha os Hos cs E. rewrite comp_ops_eq in E.
    destruct (comp_operand foldk a) as [ca|] eqn:Ea; [|discriminate].
    destruct (comp_ops foldk os) as [cos|] eqn:Eo; [|discriminate]. inversion E; subst.
    constructor; [apply (Ha _ Ea) | apply (Hos _ Eo)].
  - intros e1 H1 e2 H2 c E. cbn [tcode] in E.
    destruct (comp_expr foldk [] e1) as [c1|] eqn:E1; [|discriminate].
    destruct (comp_expr foldk [] e2) as [c2|] eqn:E2; [|discriminate]. inversion E; subst; clear E.
    constructor; [exact I|]. apply ex_app. split; [apply (H1 _ E1)|]. constructor; [reflexivity | apply (H2 _ E2)].
  - intros t Ht a ts Hts c E. rewrite comp_targets_eq in E.
    destruct (comp_target foldk t) as [ct|] eqn:Et; [|discriminate].
    destruct (comp_targets foldk ts) as [cts|] eqn:Ets; [|discriminate]. inversion E; subst; clear E.
    apply ex_app; split; [apply (Ht _ Et)|]. constructor; [reflexivity | apply (Hts _ Ets)].
  - intros p es IH c E. rewrite comp_target_eq in E. destruct (comp_args foldk es) as [ct|] eqn:Et; inversion E; subst.
    apply ex_snoc; [apply (IH _ Et) | exact I].
Qed.

Lemma ex_expr : forall e c, comp_expr foldk [] e = Some c -> exprish_code c.
Proof. apply ex_all. Qed.
Lemma ex_operand : forall a c, comp_operand foldk a = Some c -> exprish_code c.
Proof. apply ex_all. Qed.
Lemma ex_target : forall t c, comp_target foldk t = Some c -> exprish_code c.
Proof. apply ex_all. Qed.

(** ** Break and continue marks. *)
Definition unbroken (i : instr) : Prop :=
  match i with Jmp BreakMark _ | Jmp ContinueMark _ => False | _ => True end.
Definition nobc (c : code) : Prop := Forall unbroken c.

Lemma nobc_app : forall a b, nobc (a ++ b) <-> nobc a /\ nobc b.
Proof. intros; apply Forall_app. Qed.
Lemma ex_nobc : forall c, exprish_code c -> nobc c.
Proof.
  intros c H. eapply Forall_impl; [|exact H]. intros [] Hi; try exact I; try contradiction.
  cbn in Hi. subst. exact I.
Qed.

Lemma link_len : forall c b k i, length (link b k i c) = length c.
Proof.
  induction c as [|x c IH]; intros; [reflexivity|].
  destruct x; try (cbn; rewrite IH; reflexivity). destruct m; cbn; rewrite IH; reflexivity.
Qed.
Lemma link_app : forall a c b k i, link b k i (a ++ c) = link b k i a ++ link b k (i + zlen a) c.
Proof.
  unfold zlen. induction a as [|x a IH]; intros c b k i.
  - cbn [app link length Z.of_nat]. rewrite Z.add_0_r. reflexivity.
  - assert (E : link b k (i + 1) (a ++ c) = link b k (i + 1) a ++ link b k (i + Z.of_nat (length (x :: a))) c).
    { rewrite IH. do 2 f_equal. cbn [length]. lia. }
    cbn [app]. destruct x; try (cbn [link app]; rewrite E; reflexivity).
    destruct m; cbn [link app]; rewrite E; reflexivity.
Qed.
Lemma link_nobc : forall c b k i, nobc c -> link b k i c = c.
Proof.
  induction c as [|x c IH]; intros b k i H; [reflexivity|]. inversion H; subst.
  destruct x; try (cbn; rewrite IH by auto; reflexivity).
  destruct m; try contradiction; cbn; rewrite IH by auto; reflexivity.
Qed.
Lemma link_unmarks : forall c b k i, nobc (link b k i c).
Proof.
  induction c as [|x c IH]; intros b k i; [constructor|].
  destruct x; try (constructor; [exact I | apply IH]).
  destruct m; (constructor; [exact I | apply IH]).
Qed.
Lemma link_shift : forall c b k i d, link (b + d) (k + d) (i + d) c = link b k i c.
Proof.
  induction c as [|x c IH]; intros b k i d; [reflexivity|].
  assert (E : link (b + d) (k + d) (i + d + 1) c = link b k (i + 1) c).
  { rewrite <- (IH b k (i + 1) d). f_equal; lia. }
  destruct x; try (cbn; rewrite E; reflexivity).
  destruct m; cbn; rewrite E; do 2 f_equal; lia.
Qed.
Lemma link_again : forall c b k i b' k' i', link b k i (link b' k' i' c) = link b' k' i' c.
Proof. intros. apply link_nobc, link_unmarks. Qed.
Lemma link_break_len : forall c b i, length (link_break b i c) = length c.
Proof.
  induction c as [|x c IH]; intros; [reflexivity|].
  destruct x; try (cbn; rewrite IH; reflexivity). destruct m; cbn; rewrite IH; reflexivity.
Qed.
(** The breaks of a switch first, then those of the loop around: together one
    link with the switch's end for breaks. *)
Lemma link_after_break : forall c b k i b' d,
  link b k (i + d) (link_break b' i c) = link (b' + d) k (i + d) c.
Proof.
  induction c as [|x c IH]; intros b k i b' d; [reflexivity|].
  assert (E : link b k (i + d + 1) (link_break b' (i + 1) c) = link (b' + d) k (i + d + 1) c).
  { replace (i + d + 1) with ((i + 1) + d) by lia. apply IH. }
  destruct x; try (cbn; rewrite E; reflexivity).
  destruct m; cbn; rewrite E; do 2 f_equal; lia.
Qed.
End Shape.

Ltac sub E c Ec :=
  match type of E with match ?x with _ => _ end = _ => destruct x as [c|] eqn:Ec; [|discriminate] end.
