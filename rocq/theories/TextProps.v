(** * Properties of the way from the text of an expression to its value *)
From Coq Require Import List ZArith Bool Lia String.
From Verif Require Import Base StringModel LexModel LexSpec ParseModel ParseSpec ParseMain ExprModel VmModel ExprSpec ExprTree ExprShape ExprProofs ExprZs
  FloatModel ValueModel FoldModel FoldSpec FoldProofs ExprProps TextModel TextSpec TextProofs.
Import ListNotations.
Local Open Scope Z_scope.
Local Notation assign := VmModel.assign.

Section Claims.
(** Any meaning of literals and strings, any set of names and their variables, any reading of
    the operands that are not part of formulas, any folding of constants. *)
Variable lit : literal -> option const.
Variable text : list Z -> list Z.
Variable at_ : list Z -> option var.
Variable other : okind -> ptr -> res (Z * ptr).
Variable known is_type : list Z -> bool.
Variable makes : pexpr -> bool.
Variable foldk : ExprModel.bop -> const -> const -> fold.
Notation compile := (compile_text lit text at_ other known is_type makes foldk).
Notation text_at := (text_at lit known at_).
Notation value := (value lit text at_).
Notation safe := (fun good => safe lit text (rightly foldk good)).

(** ** C163: the text of a formula computes its value *)

(** Every text of an operator tree over variables, counted variables, constants and marked
    parentheses is compiled, and its code computes the value of the tree.  Missing: an operator
    other than && and || whose left operand is a parenthesised && or || without a mark, see
    below; operators between constants
    that are not folded rightly, see C35. *)
Theorem C163_value_partial : forall S good, sound_fold S foldk good ->
  forall T t b r u, text_at 0 T t -> safe good T -> trivia b -> ends_at r u ->
  exists c, compile (b ++ t ++ r) = Some (c, u) /\ computes S c (value S T).
Proof.
  intros S good (F1 & F2) T t b r u H Sf B E.
  destruct (text_reads lit text at_ other known is_type makes foldk good S 0 T t H Sf) as (U & R).
  pose proof (tree_written _ _ _ _ _ _ _ _ _ _ _ _ _ _ R) as W. pose proof (tree_expr _ _ _ _ _ _ _ _ _ _ _ _ _ _ R) as X.
  destruct (tree_comp _ _ _ _ _ _ _ _ _ _ _ _ _ _ R) as (c & C & _). pose proof (tree_ok _ _ _ _ _ _ _ _ _ _ _ _ _ _ R) as O.
  pose proof (tree_eval _ _ _ _ _ _ _ _ _ _ _ _ _ _ R) as V.
  exists (logic_code c). split.
  - unfold compile_text. rewrite (parse_written other (kind_of lit) known is_type makes _ t b r u W B E), X, C. reflexivity.
  - pose proof (expr_correct S foldk good F1 F2 _ _ O C) as K. intros D p s w sc HC. specialize (K D p s w sc HC). rewrite V in K. exact K.
Qed.

(** The excluded case: with a true, [(a && b) o c] is b whatever c is, for every operator [o]
    and all names and layouts, if c is among the first 128 local variables. *)
Theorem C163_logic_operand_refuted : forall a xa b xb c n o b0 b1 b2 b3 b4 b5 b6 r u,
  name a -> known a = true -> at_ a = Some xa -> name b -> known b = true -> at_ b = Some xb ->
  name c -> known c = true -> at_ c = Some (Local n) -> Z.of_nat n < 128 ->
  is_logic o = false -> o <> O_INST ->
  trivia b0 -> trivia b1 -> trivia b2 -> trivia b3 -> trivia b4 -> trivia b5 -> trivia b6 ->
  glue (op_of o) b5 (b6 ++ c) -> ends_at r u ->
  exists k, compile (b0 ++ (40 :: b1 ++ (a ++ b2 ++ bytes "&&" ++ b3 ++ b) ++ b4 ++ [41]) ++ b5 ++ sign o ++ b6 ++ c ++ r) = Some (k, u) /\
  forall S s w sc, vbool S (vget S w xa) = Some true ->
  steps S k (St S 0 s w sc) (St S (List.length k) (inl (vget S w xb) :: s) w sc).
Proof.
  intros a xa b xb c n o b0 b1 b2 b3 b4 b5 b6 r u Na Ka Aa Nb Kb Ab Nc Kc Ac Hn Lo Io B0 B1 B2 B3 B4 B5 B6 G E.
  assert (OP : forall w x, name w -> known w = true -> at_ w = Some x ->
    w_opnd other (kind_of lit) known is_type makes (POpd None (CWord w) ANil None) w /\ operand_of lit text at_ (POpd None (CWord w) ANil None) = Some (AVar x)).
  { intros w x N K A. assert (A' : at_ w <> None) by congruence.
    split.
    - pose proof (w_opd other (kind_of lit) known is_type makes None [] (CWord w) SName w ANil [] None) as Q. cbn [app postfix] in Q. rewrite app_nil_r in Q.
      apply Q; [reflexivity | constructor; auto | constructor | repeat split | discriminate | left; reflexivity].
    - rewrite operand_of_eq, core_word_eq, (word_var at_ w x N A). reflexivity. }
  destruct (OP a xa Na Ka Aa) as (Wa & Oa), (OP b xb Nb Kb Ab) as (Wb & Ob), (OP c (Local n) Nc Kc Ac) as (Wc & Oc). clear OP.
  set (pa := POpd None (CWord a) ANil None) in *. set (pb := POpd None (CWord b) ANil None) in *. set (pc := POpd None (CWord c) ANil None) in *.
  set (inner := PExpr pa (PCons OpLogicAnd pb PNil) PNoTern).
  assert (WI : written other (kind_of lit) known is_type makes inner (a ++ b2 ++ bytes "&&" ++ b3 ++ b)).
  { pose proof (w_expr other (kind_of lit) known is_type makes pa (PCons OpLogicAnd pb PNil) PNoTern a (b2 ++ spelling OpLogicAnd ++ b3 ++ b ++ []) [] Wa) as Q.
    rewrite !app_nil_r in Q. apply Q; [|constructor | right; split; [cbn; intuition discriminate | exact I]].
    pose proof (w_cons other (kind_of lit) known is_type makes OpLogicAnd pb PNil b2 b3 b [] B2 B3) as Q2. rewrite !app_nil_r in Q2. apply Q2; auto; try discriminate; [constructor|].
    split; [|split; [|split]]; intros KK; try discriminate; destruct KK; discriminate. }
  assert (WO : w_opnd other (kind_of lit) known is_type makes (POpd None (CParen inner) ANil None) (40 :: b1 ++ (a ++ b2 ++ bytes "&&" ++ b3 ++ b) ++ b4 ++ [41])).
  { pose proof (w_opd other (kind_of lit) known is_type makes None [] (CParen inner) SParen (40 :: b1 ++ (a ++ b2 ++ bytes "&&" ++ b3 ++ b) ++ b4 ++ [41]) ANil [] None) as Q.
    cbn [app postfix] in Q. rewrite app_nil_r in Q.
    apply Q; [reflexivity | constructor; auto | constructor | repeat split; left; reflexivity | discriminate | left; reflexivity]. }
  assert (WE : written other (kind_of lit) known is_type makes (PExpr (POpd None (CParen inner) ANil None) (PCons (op_of o) pc PNil) PNoTern)
     ((40 :: b1 ++ (a ++ b2 ++ bytes "&&" ++ b3 ++ b) ++ b4 ++ [41]) ++ b5 ++ sign o ++ b6 ++ c)).
  { destruct (op_plain o) as (P1 & P2 & P3).
    pose proof (w_expr other (kind_of lit) known is_type makes _ (PCons (op_of o) pc PNil) PNoTern _ (b5 ++ spelling (op_of o) ++ b6 ++ c ++ []) [] WO) as Q.
    rewrite !app_nil_r in Q. apply Q; [|constructor | right; split; [exact P3 | exact I]].
    pose proof (w_cons other (kind_of lit) known is_type makes (op_of o) pc PNil b5 b6 c [] B5 B6) as Q2. rewrite !app_nil_r in Q2. apply Q2; auto. constructor. }
  pose proof (parse_written other (kind_of lit) known is_type makes _ _ b0 r u WE B0 E) as P.
  replace (b0 ++ (40 :: b1 ++ (a ++ b2 ++ bytes "&&" ++ b3 ++ b) ++ b4 ++ [41]) ++ b5 ++ sign o ++ b6 ++ c ++ r)
     with (b0 ++ ((40 :: b1 ++ (a ++ b2 ++ bytes "&&" ++ b3 ++ b) ++ b4 ++ [41]) ++ b5 ++ sign o ++ b6 ++ c) ++ r) by (rewrite <- !app_assoc; reflexivity).
  assert (X : expr_of lit text at_ (PExpr (POpd None (CParen inner) ANil None) (PCons (op_of o) pc PNil) PNoTern) =
     Some (Expr TgNil (AParen (Expr TgNil (AVar xa) (OCons O_LAND (AVar xb) ONil) TNone)) (OCons o (AVar (Local n)) ONil) TNone)).
  { assert (XI : expr_of lit text at_ inner = Some (Expr TgNil (AVar xa) (OCons O_LAND (AVar xb) ONil) TNone)).
    { unfold inner. rewrite expr_of_eq, Oa, chain_of_eq. cbn [asop_of bop_of]. rewrite Ob. reflexivity. }
    rewrite expr_of_eq, operand_of_eq, core_paren_eq, XI. cbn [counted prefixed]. rewrite chain_of_eq, asop_op, bop_op, Oc. reflexivity. }
  assert (CC : comp_expr foldk [] (Expr TgNil (AParen (Expr TgNil (AVar xa) (OCons O_LAND (AVar xb) ONil) TNone)) (OCons o (AVar (Local n)) ONil) TNone) =
     Some [LoadVar xa; Jnt NoMark 3; LoadVar xb; Jmp NoMark 2; Bin o (Z.of_nat n) (Cst (KBool false)) (Z.lor (Z.lor P_ILOAD_KR 0) P_KBOOL)]).
  { assert (L : 128 <=? Z.of_nat n = false) by (apply Z.leb_gt; exact Hn).
    destruct o; try discriminate; try congruence; cbn; rewrite L; reflexivity. }
  eexists. split; [unfold compile_text; rewrite P, X, CC; reflexivity|].
  intros S s w sc V. eapply steps_cons; [reflexivity|]. eapply steps_cons; [cbn; rewrite V; reflexivity|]. eapply steps_cons; [reflexivity|]. eapply steps_cons; [reflexivity|]. constructor.
Qed.

(** ** C164: the text of an assignment stores the value *)
Definition assign_sign (a : asop) : operator :=
  match a with
  | A_SET => OpAssign | A_ADD => OpAssignAdd | A_SUB => OpAssignSub | A_MUL => OpAssignMul | A_DIV => OpAssignDiv | A_MOD => OpAssignMod
  | A_XOR => OpAssignXor | A_AND => OpAssignAnd | A_OR => OpAssignOr | A_SHL => OpAssignShl | A_SHR => OpAssignShr
  end.
Theorem C164_assignment_partial : forall S good, sound_fold S foldk good ->
  forall x v a T t b b1 b2 r u, name x -> known x = true -> at_ x = Some v -> text_at 0 T t -> safe good T ->
  trivia b -> trivia b1 -> trivia b2 -> ends_at r u ->
  exists c, compile (b ++ (x ++ b1 ++ spelling (assign_sign a) ++ b2 ++ t) ++ r) = Some (c, u) /\
  computes S c (fun w => ebind (value S T w) (fun y w1 => assign S a (lvar S v) y w1)).
Proof.
  intros S good (F1 & F2) x v a T t b b1 b2 r u Nx Kx Ax H Sf B B1 B2 E.
  destruct (text_reads lit text at_ other known is_type makes foldk good S 0 T t H Sf) as (U & R).
  pose proof (tree_expr _ _ _ _ _ _ _ _ _ _ _ _ _ _ R) as X.
  destruct (tree_comp _ _ _ _ _ _ _ _ _ _ _ _ _ _ R) as (c & C & _). pose proof (tree_ok _ _ _ _ _ _ _ _ _ _ _ _ _ _ R) as O.
  pose proof (tree_eval _ _ _ _ _ _ _ _ _ _ _ _ _ _ R) as V.
  set (h := lp (first_leaf U)) in *. set (tl := pops_of (rest_toks U)) in *.
  assert (W : written other (kind_of lit) known is_type makes (PExpr (POpd None (CWord x) ANil None) (PCons (assign_sign a) h tl) PNoTern)
    (x ++ b1 ++ spelling (assign_sign a) ++ b2 ++ t)).
  { destruct R as ((tr & -> & RT) & _ & _ & L & _). destruct (leaves_rest _ _ _ _ _ _ _ _ _ U L) as ((WH & _) & F).
    pose proof (w_opd other (kind_of lit) known is_type makes None [] (CWord x) SName x ANil [] None) as Q. cbn [app postfix] in Q. rewrite app_nil_r in Q.
    assert (WX : w_opnd other (kind_of lit) known is_type makes (POpd None (CWord x) ANil None) x).
    { apply Q; [reflexivity | constructor; auto | constructor | repeat split | discriminate | left; reflexivity]. } clear Q.
    pose proof (w_expr other (kind_of lit) known is_type makes _ (PCons (assign_sign a) h tl) PNoTern x (b1 ++ spelling (assign_sign a) ++ b2 ++ lt (first_leaf U) ++ tr) [] WX) as Q.
    rewrite !app_nil_r in Q. apply Q; [|constructor|].
    - apply w_cons; auto; try (destruct a; discriminate); [eapply rest_written; eauto|].
      split; [|split; [|split]]; intros K; destruct a; try discriminate; destruct K; discriminate.
    - left. repeat split; [destruct a; cbn; tauto | exists x, ANil; split; [reflexivity | intros []] | apply pops_assigns]. }
  assert (XA : expr_of lit text at_ (PExpr (POpd None (CWord x) ANil None) (PCons (assign_sign a) h tl) PNoTern) =
     Some (Expr (TgCons (TVar v) a TgNil) (la (first_leaf U)) (ops_of (rest_toks U)) TNone)).
  { unfold pexpr_of_tree in X. rewrite expr_of_eq in X. fold h tl in X.
    rewrite expr_of_eq, operand_of_eq, core_word_eq, (word_var at_ x v Nx Ax). cbn [counted prefixed]. rewrite chain_of_eq. cbn [target_of].
    destruct (chain_of lit text at_ (operand_of lit text at_ h) tl) as [((ts, hd), os)|]; [|discriminate]. cbn [tern_of TextModel.tern_of] in X.
    unfold expr_of_tree in X. injection X as -> -> ->. destruct a; reflexivity. }
  assert (CA : exists k, comp_expr foldk [] (Expr (TgCons (TVar v) a TgNil) (la (first_leaf U)) (ops_of (rest_toks U)) TNone) = Some k).
  { unfold expr_of_tree in C. rewrite comp_expr_eq in *. rewrite comp_targets_eq. cbn [comp_target comp_targets] in *.
    destruct (comp_operand foldk (la (first_leaf U))); [|discriminate]. destruct (comp_ops foldk (ops_of (rest_toks U))); [|discriminate].
    destruct (ctoks _ _ _ _ _); [|discriminate]. cbn [comp_tern ExprModel.comp_tern]. eexists; reflexivity. }
  destruct CA as (k & CA). exists k. split.
  - unfold compile_text. rewrite (parse_written other (kind_of lit) known is_type makes _ _ b r u W B E), XA, CA. reflexivity.
  - pose proof (expr_correct S foldk good F1 F2 (Expr (TgCons (TVar v) a TgNil) (la (first_leaf U)) (ops_of (rest_toks U)) TNone) k O CA) as K.
    intros D p s w sc HC. specialize (K D p s w sc HC).
    replace (ebind (value S T w) (fun y w1 => assign S a (lvar S v) y w1)) with (eval_expr S (Expr (TgCons (TVar v) a TgNil) (la (first_leaf U)) (ops_of (rest_toks U)) TNone) w); [exact K|].
    rewrite <- V. unfold expr_of_tree. cbn [eval_expr eval_tern eval_targets eval_target].
    destruct (eval_tree S _ w) as [y w1|w1]; cbn [ebind]; [|reflexivity]. destruct (assign S a (lvar S v) y w1); reflexivity.
Qed.

(** Several assignments in one text: the names from left to right, each with its sign and its
    layout. *)
Record goal := Goal { gn : list Z; gv : var; gs : asop; g1 : list Z; g2 : list Z }.
Definition goal_ok (g : goal) : Prop := name (gn g) /\ known (gn g) = true /\ at_ (gn g) = Some (gv g) /\ trivia (g1 g) /\ trivia (g2 g).
Fixpoint goals_text (l : list goal) (t : list Z) : list Z :=
  match l with [] => t | g :: l' => gn g ++ g1 g ++ spelling (assign_sign (gs g)) ++ g2 g ++ goals_text l' t end.
(** The value is handed from the leftmost name to the rightmost. *)
Fixpoint hand_on (S : Sem) (l : list goal) (y : V S) : den S := fun w =>
  match l with [] => EOk y w | g :: l' => ebind (assign S (gs g) (lvar S (gv g)) y w) (fun y1 w1 => hand_on S l' y1 w1) end.

Section Chain.
Variable U : tree leaf.
Definition chain_hd (l : list goal) : popnd := match l with [] => lp (first_leaf U) | g :: _ => POpd None (CWord (gn g)) ANil None end.
Fixpoint chain_tl (l : list goal) : pops := match l with [] => pops_of (rest_toks U) | g :: l' => PCons (assign_sign (gs g)) (chain_hd l') (chain_tl l') end.
Fixpoint chain_tg (l : list goal) : targets := match l with [] => TgNil | g :: l' => TgCons (TVar (gv g)) (gs g) (chain_tg l') end.
Lemma chain_written : forall l t, Forall goal_ok l -> t <> [] ->
  (exists tr, t = lt (first_leaf U) ++ tr /\ w_opnd other (kind_of lit) known is_type makes (lp (first_leaf U)) (lt (first_leaf U)) /\
     w_ops other (kind_of lit) known is_type makes (pops_of (rest_toks U)) tr) ->
  (exists th tr, goals_text l t = th ++ tr /\ w_opnd other (kind_of lit) known is_type makes (chain_hd l) th /\ w_ops other (kind_of lit) known is_type makes (chain_tl l) tr) /\
  assigns (chain_hd l) (chain_tl l).
Proof.
  intros l t F Ht (tr & -> & WH & WT). induction F as [|g l (N & K & A & B1 & B2) F IH].
  - split; [exists (lt (first_leaf U)), tr; auto | apply pops_assigns].
  - destruct IH as ((th & tq & E & IH1 & IH2) & IH3).
    assert (WX : w_opnd other (kind_of lit) known is_type makes (POpd None (CWord (gn g)) ANil None) (gn g)).
    { pose proof (w_opd other (kind_of lit) known is_type makes None [] (CWord (gn g)) SName (gn g) ANil [] None) as Q. cbn [app postfix] in Q. rewrite app_nil_r in Q.
      apply Q; [reflexivity | constructor; auto | constructor | repeat split | discriminate | left; reflexivity]. }
    split.
    + exists (gn g), (g1 g ++ spelling (assign_sign (gs g)) ++ g2 g ++ th ++ tq). cbn [goals_text chain_hd chain_tl]. rewrite E. split; [reflexivity|]. split; [exact WX|].
      apply w_cons; auto; try (destruct (gs g); discriminate).
      split; [|split; [|split]]; intros Q; destruct (gs g); try discriminate; destruct Q; discriminate.
    + cbn [chain_hd chain_tl assigns]. left. repeat split; [destruct (gs g); cbn; tauto | exists (gn g), ANil; split; [reflexivity | intros []] | exact IH3].
Qed.
Lemma chain_reads : forall l, Forall goal_ok l ->
  chain_of lit text at_ (operand_of lit text at_ (lp (first_leaf U))) (pops_of (rest_toks U)) = Some (TgNil, la (first_leaf U), ops_of (rest_toks U)) ->
  chain_of lit text at_ (operand_of lit text at_ (chain_hd l)) (chain_tl l) = Some (chain_tg l, la (first_leaf U), ops_of (rest_toks U)).
Proof.
  intros l F E. induction F as [|g l (N & K & A & B1 & B2) F IH]; [exact E|].
  cbn [chain_hd chain_tl chain_tg]. rewrite operand_of_eq, core_word_eq, (word_var at_ _ _ N A). cbn [counted prefixed]. rewrite chain_of_eq. cbn [target_of]. rewrite IH.
  destruct (gs g); reflexivity.
Qed.
Lemma chain_compiles : forall l, exists c, comp_targets foldk (chain_tg l) = Some c.
Proof.
  induction l as [|g l (c & IH)]; [exists []; reflexivity|]. cbn [chain_tg]. rewrite comp_targets_eq. cbn [comp_target ExprModel.comp_target]. rewrite IH. eexists; reflexivity.
Qed.
Lemma chain_eval : forall S l y w, eval_targets S (chain_tg l) y w = hand_on S l y w.
Proof.
  intros S l. induction l as [|g l IH]; intros y w; [reflexivity|]. cbn [chain_tg hand_on].
  change (eval_targets S (TgCons (TVar (gv g)) (gs g) (chain_tg l)) y w) with (ebind (assign S (gs g) (lvar S (gv g)) y w) (fun y1 w1 => eval_targets S (chain_tg l) y1 w1)).
  destruct (assign S (gs g) (lvar S (gv g)) y w); cbn [ebind]; [apply IH | reflexivity].
Qed.
Lemma chain_ok : forall good l, ok_targets foldk good (chain_tg l) = true.
Proof. intros good l. induction l as [|g l IH]; [reflexivity|]. exact IH. Qed.
End Chain.

(** Any number of assignments in one text. *)
Theorem C164_chain_partial : forall S good, sound_fold S foldk good ->
  forall l T t b r u, Forall goal_ok l -> text_at 0 T t -> safe good T -> trivia b -> ends_at r u ->
  exists c, compile (b ++ goals_text l t ++ r) = Some (c, u) /\
  computes S c (fun w => ebind (value S T w) (fun y w1 => hand_on S l y w1)).
Proof.
  intros S good (F1 & F2) l T t b r u F H Sf B E.
  destruct (text_reads lit text at_ other known is_type makes foldk good S 0 T t H Sf) as (U & R).
  pose proof (tree_expr _ _ _ _ _ _ _ _ _ _ _ _ _ _ R) as X.
  destruct (tree_comp _ _ _ _ _ _ _ _ _ _ _ _ _ _ R) as (c & C & _). pose proof (tree_ok _ _ _ _ _ _ _ _ _ _ _ _ _ _ R) as O.
  pose proof (tree_eval _ _ _ _ _ _ _ _ _ _ _ _ _ _ R) as V.
  assert (W : written other (kind_of lit) known is_type makes (PExpr (chain_hd U l) (chain_tl U l) PNoTern) (goals_text l t)).
  { destruct R as ((tr & -> & RT) & _ & _ & L & _). destruct (leaves_rest _ _ _ _ _ _ _ _ _ U L) as ((WH & Nt & _) & FR).
    destruct (chain_written U l (lt (first_leaf U) ++ tr) F) as ((th & tq & -> & W1 & W2) & W3).
    - intros Q. apply app_eq_nil in Q. destruct Q. auto.
    - exists tr. split; [reflexivity|]. split; [exact WH | eapply rest_written; eauto].
    - pose proof (w_expr other (kind_of lit) known is_type makes _ _ PNoTern _ _ [] W1 W2 (w_notern _ _ _ _ _) W3) as Q. rewrite app_nil_r in Q. exact Q. }
  assert (XA : expr_of lit text at_ (PExpr (chain_hd U l) (chain_tl U l) PNoTern) = Some (Expr (chain_tg l) (la (first_leaf U)) (ops_of (rest_toks U)) TNone)).
  { rewrite expr_of_eq, chain_reads; [reflexivity | exact F |]. unfold pexpr_of_tree in X. rewrite expr_of_eq in X.
    destruct (chain_of lit text at_ _ _) as [((ts, hd), os)|]; [|discriminate]. cbn [TextModel.tern_of] in X. unfold expr_of_tree in X. injection X as -> -> ->. reflexivity. }
  assert (CA : exists k, comp_expr foldk [] (Expr (chain_tg l) (la (first_leaf U)) (ops_of (rest_toks U)) TNone) = Some k).
  { unfold expr_of_tree in C. rewrite comp_expr_eq in *. destruct (chain_compiles l) as (ct & ->). cbn [comp_targets ExprModel.comp_targets] in C.
    destruct (comp_operand foldk (la (first_leaf U))); [|discriminate]. destruct (comp_ops foldk (ops_of (rest_toks U))); [|discriminate].
    destruct (ctoks _ _ _ _ _); [|discriminate]. cbn [comp_tern ExprModel.comp_tern]. eexists; reflexivity. }
  destruct CA as (k & CA). exists k. split.
  - unfold compile_text. rewrite (parse_written other (kind_of lit) known is_type makes _ _ b r u W B E), XA, CA. reflexivity.
  - assert (OK : ok_expr foldk good (Expr (chain_tg l) (la (first_leaf U)) (ops_of (rest_toks U)) TNone) = true).
    { change (ok_targets foldk good (chain_tg l) && true && ok_tree foldk good (tree_of (inf_of foldk good (la (first_leaf U))) (ok_ops foldk good (ops_of (rest_toks U)))) = true).
      rewrite chain_ok. exact O. }
    pose proof (expr_correct S foldk good F1 F2 _ k OK CA) as K.
    intros D p s w sc HC. specialize (K D p s w sc HC).
    match goal with |- match ?x with _ => _ end => replace x with (eval_expr S (Expr (chain_tg l) (la (first_leaf U)) (ops_of (rest_toks U)) TNone) w); [exact K|] end.
    rewrite <- V. unfold expr_of_tree. cbn [eval_expr eval_tern].
    destruct (eval_tree S _ w) as [y w1|w1]; cbn [ebind]; [|reflexivity]. apply chain_eval.
Qed.

(** ** C165: the text of a conditional *)
Theorem C165_conditional_partial : forall S good, sound_fold S foldk good ->
  forall T0 t0 T1 t1 T2 t2 b b1 b2 b3 b4 r u,
  text_at 0 T0 t0 -> text_at 0 T1 t1 -> text_at 0 T2 t2 -> safe good T0 -> safe good T1 -> safe good T2 ->
  trivia b -> trivia b1 -> trivia b2 -> trivia b3 -> trivia b4 -> ends_at r u ->
  exists c, compile (b ++ (t0 ++ b1 ++ [63] ++ b2 ++ t1 ++ b3 ++ [58] ++ b4 ++ t2) ++ r) = Some (c, u) /\
  computes S c (fun w => ebind (value S T0 w) (fun v w1 =>
    match vbool S v with Some true => value S T1 w1 | Some false => value S T2 w1 | None => EErr w1 end)).
Proof.
  intros S good (F1 & F2) T0 t0 T1 t1 T2 t2 b b1 b2 b3 b4 r u H0 H1 H2 S0 S1 S2 B B1 B2 B3 B4 E.
  destruct (text_reads lit text at_ other known is_type makes foldk good S 0 T0 t0 H0 S0) as (U0 & R0).
  destruct (text_reads lit text at_ other known is_type makes foldk good S 0 T1 t1 H1 S1) as (U1 & R1).
  destruct (text_reads lit text at_ other known is_type makes foldk good S 0 T2 t2 H2 S2) as (U2 & R2).
  pose proof (tree_expr _ _ _ _ _ _ _ _ _ _ _ _ _ _ R0) as X0. pose proof (tree_expr _ _ _ _ _ _ _ _ _ _ _ _ _ _ R1) as X1. pose proof (tree_expr _ _ _ _ _ _ _ _ _ _ _ _ _ _ R2) as X2.
  pose proof (tree_written _ _ _ _ _ _ _ _ _ _ _ _ _ _ R1) as W1. pose proof (tree_written _ _ _ _ _ _ _ _ _ _ _ _ _ _ R2) as W2.
  destruct (tree_comp _ _ _ _ _ _ _ _ _ _ _ _ _ _ R0) as (c0 & C0 & _). destruct (tree_comp _ _ _ _ _ _ _ _ _ _ _ _ _ _ R1) as (c1 & C1 & _). destruct (tree_comp _ _ _ _ _ _ _ _ _ _ _ _ _ _ R2) as (c2 & C2 & _).
  pose proof (tree_ok _ _ _ _ _ _ _ _ _ _ _ _ _ _ R0) as O0. pose proof (tree_ok _ _ _ _ _ _ _ _ _ _ _ _ _ _ R1) as O1. pose proof (tree_ok _ _ _ _ _ _ _ _ _ _ _ _ _ _ R2) as O2.
  pose proof (tree_eval _ _ _ _ _ _ _ _ _ _ _ _ _ _ R0) as V0. pose proof (tree_eval _ _ _ _ _ _ _ _ _ _ _ _ _ _ R1) as V1. pose proof (tree_eval _ _ _ _ _ _ _ _ _ _ _ _ _ _ R2) as V2.
  assert (W : written other (kind_of lit) known is_type makes (PExpr (lp (first_leaf U0)) (pops_of (rest_toks U0)) (PTern (pexpr_of_tree U1) (PSome (pexpr_of_tree U2))))
    (t0 ++ b1 ++ [63] ++ b2 ++ t1 ++ b3 ++ [58] ++ b4 ++ t2)).
  { destruct R0 as ((tr & -> & RT) & _ & _ & L & _). destruct (leaves_rest _ _ _ _ _ _ _ _ _ U0 L) as ((WH & _) & F).
    rewrite <- app_assoc. apply w_expr; auto; [eapply rest_written; eauto | exact (w_some other (kind_of lit) known is_type makes _ _ b1 b2 b3 b4 t1 t2 B1 B2 B3 B4 W1 W2) | apply pops_assigns]. }
  set (e0 := Expr TgNil (la (first_leaf U0)) (ops_of (rest_toks U0)) (TSome (expr_of_tree U1) (expr_of_tree U2))).
  assert (X : expr_of lit text at_ (PExpr (lp (first_leaf U0)) (pops_of (rest_toks U0)) (PTern (pexpr_of_tree U1) (PSome (pexpr_of_tree U2)))) = Some e0).
  { unfold pexpr_of_tree at 1 in X0. rewrite expr_of_eq in *.
    destruct (chain_of lit text at_ _ _) as [((ts, hd), os)|]; [|discriminate]. cbn [TextModel.tern_of] in X0. unfold expr_of_tree in X0. injection X0 as -> -> ->.
    change (TextModel.tern_of lit text at_ (PTern (pexpr_of_tree U1) (PSome (pexpr_of_tree U2)))) with
      (match expr_of lit text at_ (pexpr_of_tree U1), expr_of lit text at_ (pexpr_of_tree U2) with Some a, Some b => Some (TSome a b) | _, _ => None end).
    rewrite X1, X2. reflexivity. }
  assert (CA : exists k, comp_expr foldk [] e0 = Some k).
  { destruct (comp_expr_inv foldk _ _ _ _ _ C0) as (cts & chd & ctl & tt & ct & E1 & E2 & E3 & E4 & E5 & _).
    unfold e0. rewrite comp_expr_parts by (first [apply shape_operand | apply shape_ops | apply shape_tern | left; reflexivity]).
    rewrite E1, E2, E3, E4. unfold tcode. rewrite C1, C2. eexists; reflexivity. }
  destruct CA as (k & CA). exists k. split.
  - unfold compile_text. rewrite (parse_written other (kind_of lit) known is_type makes _ _ b r u W B E), X, CA. reflexivity.
  - assert (OK : ok_expr foldk good e0 = true).
    { change (ok_expr foldk good e0) with (ok_targets foldk good TgNil && (ok_expr foldk good (expr_of_tree U1) && ok_expr foldk good (expr_of_tree U2)) &&
        ok_tree foldk good (tree_of (inf_of foldk good (la (first_leaf U0))) (ok_ops foldk good (ops_of (rest_toks U0))))).
      rewrite O1, O2. exact O0. }
    pose proof (expr_correct S foldk good F1 F2 e0 k OK CA) as K.
    intros D p s w sc HC. specialize (K D p s w sc HC).
    match goal with |- match ?x with _ => _ end => replace x with (eval_expr S e0 w); [exact K|] end.
    rewrite <- V0. unfold e0, expr_of_tree at 3.
    change (eval_expr S (Expr TgNil (la (first_leaf U0)) (ops_of (rest_toks U0)) (TSome (expr_of_tree U1) (expr_of_tree U2))) w) with
      (ebind (eval_tree S (tree_of (eval_operand S (la (first_leaf U0)), type_leaf (la (first_leaf U0))) (ops_den S (ops_of (rest_toks U0)))) w) (fun v w1 =>
       ebind (ebind (truth S v w1) (fun x w2 => if x then eval_expr S (expr_of_tree U1) w2 else eval_expr S (expr_of_tree U2) w2)) (fun v2 w2 => EOk v2 w2))).
    change (eval_expr S (Expr TgNil (la (first_leaf U0)) (ops_of (rest_toks U0)) TNone) w) with
      (ebind (eval_tree S (tree_of (eval_operand S (la (first_leaf U0)), type_leaf (la (first_leaf U0))) (ops_den S (ops_of (rest_toks U0)))) w) (fun v w1 =>
       ebind (EOk v w1) (fun v2 w2 => EOk v2 w2))).
    destruct (eval_tree S _ w) as [y w1|w1]; cbn [ebind]; [|reflexivity]. unfold truth. destruct (vbool S y) as [[]|]; cbn [ebind]; [rewrite <- V1 | rewrite <- V2 | reflexivity].
    + destruct (eval_expr S (expr_of_tree U1) w1); reflexivity.
    + destruct (eval_expr S (expr_of_tree U2) w1); reflexivity.
Qed.
End Claims.

(** ** C166: formulas over integers *)
(** The integer that a formula over + - * & | ^ stands for, unless a part of it does not fit
    in 64 bits. *)
Definition fits64 (z : Z) : option Z := if (- 2 ^ 63 <=? z) && (z <? 2 ^ 63) then Some z else None.
Definition exact (o : ExprModel.bop) (x y : Z) : option Z :=
  match o with
  | O_ADD => fits64 (x + y) | O_SUB => fits64 (x - y) | O_MUL => fits64 (x * y)
  | O_AND => fits64 (Z.land x y) | O_OR => fits64 (Z.lor x y) | O_XOR => fits64 (Z.lxor x y)
  | _ => None
  end.
Fixpoint integer (lit : literal -> option const) (f : list Z -> Z) (T : formula) : option Z :=
  match T with
  | Atom (NameA None x) => Some (f x)
  | Atom (NameA (Some MNeg) x) => fits64 (- f x)
  | Atom (NameA (Some MBwc) x) => fits64 (Z.lnot (f x))
  | Atom (NumA m v) => match lit (LText v), m with
                       | Some (KInt z), None => Some z
                       | Some (KInt z), Some MNeg => fits64 (- z)
                       | Some (KInt z), Some MBwc => Some (Z.lnot z)
                       | _, _ => None
                       end
  | Atom _ => None
  | Mark m T => match integer lit f T, m with
                | Some z, MNeg => fits64 (- z)
                | Some z, MBwc => fits64 (Z.lnot z)
                | _, _ => None
                end
  | Op o l r => match integer lit f l, integer lit f r with Some x, Some y => exact o x y | _, _ => None end
  end.
Section Integers.
Variable itext : Z -> list Z.
Variable ftext : f64 -> list Z.
Variable otext : stk -> list Z.
Variable has_char : list Z -> Z -> bool.
Variable has_str : list Z -> list Z -> bool.
Notation ZM := (ZSem itext ftext otext has_char has_str).

Lemma fits_push : forall a z, fits64 a = Some z -> push_int a = Push (Stk z P_INT).
Proof. intros a z. unfold fits64, push_int, in64. destruct (_ && _); [|discriminate]. intros E; injection E as <-. reflexivity. Qed.
Local Arguments push_int : simpl never.
Lemma integer_value : forall lit text at_ f (w : zworld), (forall x v, at_ x = Some v -> vars w v = ZI (f x)) ->
  forall known l T t, TextSpec.text_at lit known at_ l T t -> forall z, integer lit f T = Some z -> TextSpec.value lit text at_ ZM T w = EOk (ZI z) w.
Proof.
  intros lit text at_ f w Hf known l T t H. induction H as [l a t A | l T b1 t b2 H IH B1 B2 | l m b0 T b1 t b2 H IH B0 B1 B2 | l o L R t1 b1 b2 t2 Hl Ho HL IHL HR IHR B1 B2 G]; intros z E.
  - cbn [TextSpec.value]. unfold atom_value.
    assert (N : forall x, at_ x <> None -> name_value at_ ZM x w = EOk (ZI (f x)) w).
    { intros x Hx. unfold name_value. destruct (at_ x) as [v|] eqn:Ea; [|congruence]. cbn. rewrite (Hf x v Ea). reflexivity. }
    destruct a as [m x|p i x|m v|v|n q| |]; cbn [integer] in E; try discriminate.
    + assert (Ax : at_ x <> None) by (inversion A; assumption). rewrite N by auto. destruct m as [[]|]; try discriminate; [| |injection E as <-; reflexivity];
        cbn [ebind]; apply fits_push in E; cbn; unfold op_neg, op_bwc; cbn; rewrite E; reflexivity.
    + unfold constant, number. destruct (lit (LText v)) as [[y| | |]|] eqn:El; try (destruct m as [[]|]; discriminate). cbn [is_number].
      destruct m as [[]|]; cbn [marked]; try discriminate.
      * unfold fits64 in E. destruct (_ && _) eqn:Ef in E; [|discriminate]. injection E as <-. apply andb_prop in Ef. destruct Ef as (_ & Ef). apply Z.ltb_lt in Ef.
        destruct (Z.eqb_spec y (- 2 ^ 63)); [lia | reflexivity].
      * injection E as <-. reflexivity.
      * injection E as <-. reflexivity.
  - apply IH, E.
  - cbn [integer] in E. destruct (integer lit f T) as [x|] eqn:E1; [|discriminate]. specialize (IH x eq_refl). cbn [TextSpec.value]. rewrite IH. cbn [ebind].
    destruct m; try discriminate; apply fits_push in E; cbn; unfold op_neg, op_bwc; cbn; rewrite E; reflexivity.
  - cbn [integer] in E. destruct (integer lit f L) as [x|] eqn:E1; [|discriminate]. destruct (integer lit f R) as [y|] eqn:E2; [|discriminate].
    specialize (IHL x eq_refl). specialize (IHR y eq_refl). cbn [TextSpec.value].
    assert (LG : is_logic o = false) by (destruct o; try discriminate; reflexivity).
    rewrite eval_tree_bin by auto. unfold bind2. cbn [eval_tree fst]. rewrite IHL. cbn [ebind]. rewrite IHR. cbn [ebind].
    destruct o; try discriminate; unfold exact in E; apply fits_push in E;
      cbn; unfold zbinop; cbn; unfold op_add, op_sub, op_mul, op_arith, op_bits, push_oint; cbn; rewrite E; reflexivity.
Qed.
Lemma integer_folds : forall o x y z, exact o x y = Some z ->
  rightly (foldk itext ftext has_char has_str) (good itext ftext) o (KInt x) (KInt y) = Some (KInt z).
Proof.
  intros o x y z E. unfold rightly. destruct o; try discriminate; unfold exact, fits64 in E; cbv [good foldk fold_arith fold_bits bopZ fold_int in64];
    match type of E with (if ?c then _ else _) = _ => destruct c; [injection E as <-; reflexivity | discriminate] end.
Qed.
Lemma integer_whole : forall lit text f T z k, integer lit f T = Some z ->
  whole lit text (rightly (foldk itext ftext has_char has_str) (good itext ftext)) T = Some k -> k = KInt z.
Proof.
  intros lit text f T. induction T as [a|o l IHl r IHr|m T IH]; intros z k I E; [| |discriminate].
  - destruct a as [m x|p i x|m v|v|n q| |]; cbn [integer whole constant] in *; try discriminate.
    unfold number in E. destruct (lit (LText v)) as [[y| | |]|]; try discriminate. cbn [is_number] in E. destruct m as [[]|]; cbn [marked] in E; try discriminate; try congruence.
    unfold fits64 in I. destruct (_ && _) in I; [|discriminate]. destruct (_ =? _) in E; congruence.
  - cbn [integer whole] in *. destruct (integer lit f l) as [x|]; [|discriminate]. destruct (integer lit f r) as [y|]; [|discriminate].
    destruct (is_logic o); [discriminate|]. destruct (whole lit text _ l) as [k1|]; [|discriminate]. destruct (whole lit text _ r) as [k2|]; [|discriminate].
    specialize (IHl x k1 eq_refl eq_refl). specialize (IHr y k2 eq_refl eq_refl). subst. rewrite (integer_folds o x y z I) in E. congruence.
Qed.
Lemma integer_safe : forall lit text f T z, integer lit f T = Some z ->
  TextSpec.safe lit text (rightly (foldk itext ftext has_char has_str) (good itext ftext)) T.
Proof.
  intros lit text f T. induction T as [a|o l IHl r IHr|m T IH]; intros z I; [exact Logic.I| |].
  2: { cbn [integer] in I. cbn [TextSpec.safe]. destruct (integer lit f T) as [x|]; [|discriminate]. apply (IH x eq_refl). }
  pose proof I as I0. cbn [integer] in I.
  destruct (integer lit f l) as [x|] eqn:E1; [|discriminate]. destruct (integer lit f r) as [y|] eqn:E2; [|discriminate].
  cbn [TextSpec.safe]. split; [eauto|]. split; [eauto|]. intros _. split.
  - destruct l as [|o' l1 l2|]; [reflexivity| |reflexivity]. cbn [integer] in E1.
    destruct (integer lit f l1); [|discriminate]. destruct (integer lit f l2); [|discriminate]. destruct o'; try discriminate; reflexivity.
  - intros k1 k2 K1 K2. apply (integer_whole lit text f _ _ _ E1) in K1. apply (integer_whole lit text f _ _ _ E2) in K2. subst.
    rewrite (integer_folds o x y z I). discriminate.
Qed.

(** However a formula over integer variables and numerals is written, it computes the integer of
    ordinary arithmetic, if no part of it overflows. *)
Theorem C166_integers : forall lit text at_ other known is_type makes T t b r u f z,
  text_at lit known at_ 0 T t -> trivia b -> ends_at r u ->
  integer lit f T = Some z ->
  exists c, compile_text lit text at_ other known is_type makes (foldk itext ftext has_char has_str) (b ++ t ++ r) = Some (c, u) /\
  forall s w sc, (forall x v, at_ x = Some v -> vars w v = ZI (f x)) ->
  steps ZM c (St ZM 0 s w sc) (St ZM (List.length c) (inl (ZI z) :: s) w sc).
Proof.
  intros lit text at_ other known is_type makes T t b r u f z H B E I.
  destruct (C163_value_partial lit text at_ other known is_type makes _ ZM (good itext ftext) (C35_language_folds_soundly itext ftext otext has_char has_str) T t b r u H (integer_safe lit text f T z I) B E) as (c & C & K).
  exists c. split; [exact C|]. intros s w sc Hf. specialize (K c 0%nat s w sc (code_at_self c)). rewrite (integer_value lit text at_ f w Hf known 0%nat T t H z I) in K. exact K.
Qed.

(** x1 = x2 = ... = formula: afterwards all these variables hold the integer, the others what
    they held before, and the integer is left on the stack. *)
Theorem C164_all_hold_it : forall lit text at_ other known is_type makes l T t b r u f z,
  Forall (goal_ok at_ known) l -> Forall (fun g => gs g = A_SET) l ->
  text_at lit known at_ 0 T t -> trivia b -> ends_at r u ->
  integer lit f T = Some z ->
  exists c, compile_text lit text at_ other known is_type makes (foldk itext ftext has_char has_str) (b ++ goals_text l t ++ r) = Some (c, u) /\
  forall s w sc, (forall x v, at_ x = Some v -> vars w v = ZI (f x)) ->
  exists w', steps ZM c (St ZM 0 s w sc) (St ZM (List.length c) (inl (ZI z) :: s) w' sc) /\
    (forall g, In g l -> vars w' (gv g) = ZI z) /\
    (forall v, ~ In v (map gv l) -> vars w' v = vars w v).
Proof.
  intros lit text at_ other known is_type makes l T t b r u f z G A H B E I.
  destruct (C164_chain_partial lit text at_ other known is_type makes _ ZM (good itext ftext) (C35_language_folds_soundly itext ftext otext has_char has_str) l T t b r u G H (integer_safe lit text f T z I) B E) as (c & C & K).
  exists c. split; [exact C|]. intros s w sc Hf. specialize (K c 0%nat s w sc (code_at_self c)). cbv beta in K. rewrite (integer_value lit text at_ f w Hf known 0%nat T t H z I) in K. cbn [ebind] in K.
  assert (HO : forall l0 w0, Forall (fun g => gs g = A_SET) l0 -> exists w', hand_on ZM l0 (ZI z) w0 = EOk (ZI z) w' /\
    (forall g, In g l0 -> vars w' (gv g) = ZI z) /\ (forall v, ~ In v (map gv l0) -> vars w' v = vars w0 v) /\ (forall v, vars w0 v = ZI z -> vars w' v = ZI z)).
  { intros l0. induction l0 as [|g l0 IH]; intros w0 Q.
    - exists w0. split; [reflexivity|]. split; [intros g []|]. auto.
    - inversion Q as [|? ? Q1 Q2]; subst. destruct (IH (zset w0 (gv g) (ZI z)) Q2) as (w' & E1 & E2 & E3 & E4).
      exists w'. split; [cbn [hand_on]; rewrite Q1; exact E1|].
      assert (SS : vars (zset w0 (gv g) (ZI z)) (gv g) = ZI z) by (cbn; destruct (gv g); cbn; rewrite Nat.eqb_refl; reflexivity).
      split; [|split].
      + intros g' [<-|J]; [apply E4, SS | apply E2, J].
      + intros v J. cbn [map In] in J. rewrite E3 by tauto. cbn. destruct (var_eqb v (gv g)) eqn:Ev; [|reflexivity]. exfalso. apply J. left. symmetry.
        destruct v, (gv g); try discriminate; cbn in Ev; apply Nat.eqb_eq in Ev; congruence.
      + intros v J. apply E4. cbn. destruct (var_eqb _ _); [reflexivity | exact J]. }
  destruct (HO l w A) as (w' & E1 & E2 & E3 & _). rewrite E1 in K. exists w'. split; [exact K|]. auto.
Qed.
End Integers.

(** ** Cases *)
Definition vars_abc (x : list Z) : option var :=
  match x with [97] => Some (Local 0) | [98] => Some (Local 1) | [99] => Some (Local 2) | [103] => Some (Global 0) | _ => None end.
Definition lit_c : literal -> option const := fun l =>
  match l with
  | LText [d] => if is_digit d then Some (KInt (d - 48)) else None
  | LText [49; 46; 53] => Some (KFloat (of_int 1))
  | _ => None
  end.
Definition Zc : Sem := ZSem (fun _ => []) (fun _ => []) (fun _ => []) (fun _ _ => false) (fun _ _ => false).
Definition fold_c := foldk (fun _ => []) (fun _ => []) (fun _ _ => false) (fun _ _ => false).
Definition good_c := good (fun _ => []) (fun _ => []).
Definition compile_c (s : list Z) :=
  compile_text lit_c (fun v => v) vars_abc (fun _ _ => Thr) (fun _ => true) (fun _ => false) (fun _ => false) fold_c s.
Definition world_c (l : list zval) : zworld := ZW (fun x => match x with Local i => nth i l ZU | Global _ => nth 3 l ZU | _ => ZU end) false.
(** The value that a text leaves, and the first variable afterwards. *)
Definition run_c (s : string) (l : list zval) : option (list zval * zval) :=
  match compile_c (bytes s) with
  | Some (c, _) =>
      match exec Zc (3 * List.length c) c (St Zc 0 [] (world_c l) []) with
      | Next _ s => if Nat.eqb (pc Zc s) (List.length c)
                    then Some (map (fun x => match x with inl v => v | inr _ => ZU end) (sk Zc s), vars (wd Zc s) (Local 0)) else None
      | _ => None
      end
  | None => None
  end.
Lemma name1 : forall x, In x [97; 98; 99] -> name [x].
Proof.
  intros x H. split; [exists x, []; repeat split; [cbn in H; destruct H as [<-|[<-|[<-|[]]]]; reflexivity | constructor]|].
  split; [intros k; destruct k; discriminate|]. split; [intros [K|K]; inversion K; subst; match goal with F : Forall2 _ [] _ |- _ => inversion F end|]. split; [intros [K|K]; discriminate|]. repeat split; discriminate.
Qed.
(** -a + b * (c - ~2 - a) *)
Definition formula_c : formula :=
  Op O_ADD (Atom (NameA (Some MNeg) [97])) (Op O_MUL (Atom (NameA None [98])) (Op O_SUB (Op O_SUB (Atom (NameA None [99])) (Atom (NumA (Some MBwc) [50]))) (Atom (NameA None [97])))).
Definition text_c : list Z := bytes "-a +/*x*/ b*( c-~2 - a)".
Lemma blank1 : trivia [32]. Proof. constructor; [auto | constructor]. Qed.
Lemma formula_text : text_at lit_c (fun _ => true) vars_abc 0 formula_c text_c.
Proof.
  assert (A : forall x, In x [97; 98; 99] -> forall l, text_at lit_c (fun _ => true) vars_abc l (Atom (NameA None [x])) [x]).
  { intros x H l. constructor. constructor; [apply name1, H | reflexivity | cbn in H; destruct H as [<-|[<-|[<-|[]]]]; discriminate]. }
  change text_c with ((mark_text MNeg ++ [] ++ [97]) ++ [32] ++ sign O_ADD ++ bytes "/*x*/ " ++ ([98] ++ [] ++ sign O_MUL ++ [] ++ (40 :: [32] ++ (([99] ++ [] ++ sign O_SUB ++ [] ++ (mark_text MBwc ++ [] ++ [50])) ++ [32] ++ sign O_SUB ++ [32] ++ [97]) ++ [] ++ [41]))).
  apply t_node; [cbn; lia | discriminate | | | apply blank1 | | ].
  - constructor. constructor; [apply name1; cbn; auto | reflexivity | discriminate | constructor].
  - apply t_node; [cbn; lia | discriminate | apply A; cbn; auto | | constructor | constructor | ].
    + apply t_paren; [|apply blank1 | constructor]. apply t_node; [cbn; lia | discriminate | | apply A; cbn; auto | apply blank1 | apply blank1 |].
      { apply t_node; [cbn; lia | discriminate | apply A; cbn; auto | | constructor | constructor |].
        - constructor. constructor; [left; constructor; [repeat constructor | discriminate] | discriminate | constructor].
        - split; [|split; [|split]]; intros K; try discriminate; destruct K; discriminate. }
      split; [|split; [|split]]; intros K; try discriminate; destruct K; discriminate.
    + split; [|split; [|split]]; intros K; try discriminate; destruct K; discriminate.
  - apply (tr_block (bytes "x") [32]); [|apply blank1]. intros (p & q & H). destruct p as [|? [|? p]]; discriminate.
  - split; [|split; [|split]]; intros K; try discriminate; destruct K; discriminate.
Qed.
Example C163_case : text_at lit_c (fun _ => true) vars_abc 0 formula_c text_c /\ safe lit_c (fun v => v) (rightly fold_c good_c) formula_c
  /\ compile_c (text_c ++ [59]) <> None /\ run_c "(a && b) == c" [ZB true; ZB false; ZB true] = Some ([ZB false], ZB true)
  /\ run_c "(a && b) == g" [ZB true; ZB true; ZB true; ZB false] = Some ([ZB false], ZB true)
  /\ run_c "(a && b) == c" [ZB true; ZB true; ZB false] = Some ([ZB true], ZB true)
  /\ safe lit_c (fun v => v) (rightly fold_c good_c) (Op O_LT (Atom (CountA true true [97])) (Op O_MUL (Atom (NumA (Some MNeg) [50])) (Atom (NumA None [51]))))
  /\ run_c "a++ < -2*3" [ZI (-7)] = Some ([ZB true], ZI (-6)) /\ run_c "a < --a" [ZI 5] = Some ([ZB false], ZI 4)
  /\ run_c "a == undefined || ! TRUE" [ZI 5] = Some ([ZB false], ZI 5)
  /\ ~ safe lit_c (fun v => v) (rightly fold_c good_c) (Op O_DIV (Atom (NumA None [50])) (Atom (NumA None [48]))) /\ run_c "2/0" [] = None
  /\ safe lit_c (fun v => v) (rightly fold_c good_c) (Op O_EQ (Mark MNot (Op O_LAND (Atom (NameA None [97])) (Atom (NameA None [98])))) (Atom (NameA None [99])))
  /\ run_c "!(a && b) == c" [ZB true; ZB true; ZB false] = Some ([ZB true], ZB true) /\ run_c "! (a && b) == c" [ZB false; ZB true; ZB false] = Some ([ZB false], ZB false)
  /\ run_c "-(2*3) + ~(a)" [ZI 4] = Some ([ZI (-11)], ZI 4).
Proof. split; [apply formula_text|]. split; [cbn; repeat split; try (intros; discriminate)|]. split; [vm_compute; discriminate|]. split; [reflexivity|]. split; [reflexivity|]. split; [reflexivity|].
  split; [cbn [safe]; repeat split; intros k1 k2 H1 H2; try discriminate; injection H1 as <-; injection H2 as <-; vm_compute; discriminate|].
  split; [reflexivity|]. split; [reflexivity|]. split; [reflexivity|]. split; [|split; [reflexivity|]; split; [cbn; repeat split; intros; discriminate|]; split; [reflexivity|]; split; reflexivity].
  intros (_ & _ & H). destruct (H eq_refl) as (_ & K). apply (K (KInt 2) (KInt 0)); reflexivity.
Qed.
Example C164_case : run_c "a = b*c - b" [ZI 1; ZI 5; ZI 3] = Some ([ZI 10], ZI 10) /\ run_c "a -= b*c" [ZI 1; ZI 5; ZI 3] = Some ([ZI (-14)], ZI (-14))
  /\ goals_text [Goal [97] (Local 0) A_SET [] [32]; Goal [99] (Local 2) A_SET [32] []] text_c = bytes "a= c =-a +/*x*/ b*( c-~2 - a)"
  /\ Forall (goal_ok vars_abc (fun _ => true)) [Goal [97] (Local 0) A_SET [] [32]; Goal [99] (Local 2) A_SET [32] []]
  /\ run_c "a= c =-a +/*x*/ b*( c-~2 - a)" [ZI 2; ZI 5; ZI 9] = Some ([ZI 48], ZI 48)
  /\ run_c "a += b -= c" [ZI 1; ZI 5; ZI 3] = Some ([ZI 1], ZI 4).
Proof.
  split; [reflexivity|]. split; [reflexivity|]. split; [reflexivity|]. split; [|split; reflexivity].
  repeat (apply Forall_cons; [split; [apply name1; cbn; auto|]; repeat split; constructor; auto; constructor|]). constructor.
Qed.
Example C165_case : run_c "a < b || c == b ? b - c : c" [ZI 1; ZI 5; ZI 3] = Some ([ZI 2], ZI 1) /\ run_c "a > b ? b : c" [ZI 1; ZI 5; ZI 3] = Some ([ZI 3], ZI 1)
  /\ run_c "a ? b : c" [ZI 1; ZI 5; ZI 3] = None.
Proof. repeat split; reflexivity. Qed.
Example C166_case : integer lit_c (fun x => match x with [97] => 2 | [98] => 5 | _ => 9 end) formula_c = Some 48
  /\ run_c "-a +/*x*/ b*( c-~2 - a)" [ZI 2; ZI 5; ZI 9] = Some ([ZI 48], ZI 2).
Proof. split; reflexivity. Qed.

Print Assumptions C163_value_partial.
Print Assumptions C163_logic_operand_refuted.
Print Assumptions C164_assignment_partial.
Print Assumptions C164_chain_partial.
Print Assumptions C164_all_hold_it.
Print Assumptions C165_conditional_partial.
Print Assumptions C166_integers.
