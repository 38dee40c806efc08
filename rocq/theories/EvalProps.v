(** Properties of System::eval (C150-C155). *)
From Coq Require Import ZArith List Bool Lia.
From Verif Require Import Base FloatModel StringModel StringProofs ValueModel ExprModel VmModel ExprSpec ExprTree ExprShape ExprProofs
  FoldModel ExprZs ExprProps StmtModel StmtSpec StmtShape StmtProofs StmtProps EvalModel EvalSpec EvalProofs EvalCode EvalRun.
Import ListNotations.
Local Open Scope Z_scope.

(** What the caller gets from an activation that returned [vs]. *)
Lemma evals_ret : forall S C b na np nl r w m vs w', 0 <= na -> 0 <= np -> 0 <= nl -> 0 <= r ->
  runs_to S (eval_code C) w (FRet S w' vs) ->
  exists m' cur, evals S C b na np nl r w m w' m' cur /\ cur = b + r /\ (forall j, j < b -> m' j = m j) /\
    elements m' b (Z.to_nat r) =
    firstn (Z.to_nat r) (repeat (inl (undefv S)) (Z.to_nat r - (Z.to_nat nl + length vs)) ++
                         repeat (inl (undefv S)) (Z.to_nat nl) ++ vs).
Proof.
  intros S C b na np nl r w m vs w' Ha Hp Hl Hr H.
  destruct (eval_call (inl (undefv S)) b na np nl r (Some vs) m) as (m', cur) eqn:E. exists m', cur.
  split; [exists (FRet S w' vs); cbn [world_of vals_of]; auto|].
  exact (call_returned _ _ b na np nl r vs m m' cur Ha Hp Hl Hr E).
Qed.
Lemma evals_end : forall S C b na np nl r w m w', 0 <= na -> 0 <= np -> 0 <= nl -> 0 <= r ->
  runs_to S (eval_code C) w (FEnd S w') ->
  exists m' cur, evals S C b na np nl r w m w' m' cur /\ cur = b + r /\
    (forall j, j < b -> m' j = if b + na - np <=? j then inl (undefv S) else m j) /\
    elements m' b (Z.to_nat r) = repeat (inl (undefv S)) (Z.to_nat r).
Proof.
  intros S C b na np nl r w m w' Ha Hp Hl Hr H.
  destruct (eval_call (inl (undefv S)) b na np nl r None m) as (m', cur) eqn:E. exists m', cur.
  split; [exists (FEnd S w'); cbn [world_of vals_of]; auto|].
  exact (call_ended _ _ b na np nl r m m' cur Ha Hp Hl Hr E).
Qed.

Lemma elements_one : forall A (m : mem A) b, elements m b (Z.to_nat 1) = [m b].
Proof. intros. change (Z.to_nat 1) with 1%nat. unfold elements. cbn [seq map]. rewrite Z.add_0_r. reflexivity. Qed.
Ltac one_element F := rewrite elements_one in F; change (Z.to_nat 1) with 1%nat in F; cbn in F; congruence.

(** A call has one outcome. *)
Theorem C150_outcome_unique : forall S C b na np nl r w m w1 m1 c1 w2 m2 c2,
  evals S C b na np nl r w m w1 m1 c1 -> evals S C b na np nl r w m w2 m2 c2 -> w1 = w2 /\ m1 = m2 /\ c1 = c2.
Proof. exact evals_det. Qed.
Print Assumptions C150_outcome_unique.

(** ** C150: the result of the call is the value the text returns. *)
(** It is if the text declares no variable; missing: [tidy_stmts], [ok_stmts] (C40). *)
Theorem C150_returned_value_partial :
  forall S foldk good is_call, sound_fold S foldk good ->
  forall n ss C w v w', ok_stmts foldk good false false ss = true -> tidy_stmts is_call ss = true ->
  comp_fun foldk is_call n ss = Some C -> vars_stmts ss = O ->
  terminates S (exec_stmts S ss) w (ORet S [v] w') ->
  forall b na np m, 0 <= na -> 0 <= np ->
  exists m' cur, evals S C b na np (Z.of_nat (vars_stmts ss)) 1 w m w' m' cur /\
    m' b = v /\ cur = b + 1 /\ (forall j, j < b -> m' j = m j).
Proof.
  intros S foldk good is_call HS n ss C w v w' Ok Ht E Hv Hr b na np m Ha Hp. rewrite Hv.
  pose proof (returns_runs S foldk good is_call HS n ss C w [v] w' Ok Ht E Hr ltac:(discriminate)) as H.
  destruct (evals_ret S C b na np 0 1 w m [v] w' Ha Hp ltac:(lia) ltac:(lia) H) as (m' & cur & A & B & D & F).
  exists m', cur. split; [exact A|]. split; [|auto]. one_element F.
Qed.
Print Assumptions C150_returned_value_partial.

(** Every text that declares a variable gives undefined, whatever it returns. *)
Theorem C150_returned_value_refuted :
  forall S foldk good is_call, sound_fold S foldk good ->
  forall n ss C w v w', ok_stmts foldk good false false ss = true -> tidy_stmts is_call ss = true ->
  comp_fun foldk is_call n ss = Some C -> (0 < vars_stmts ss)%nat ->
  terminates S (exec_stmts S ss) w (ORet S [v] w') ->
  forall b na np m, 0 <= na -> 0 <= np ->
  exists m' cur, evals S C b na np (Z.of_nat (vars_stmts ss)) 1 w m w' m' cur /\ m' b = inl (undefv S).
Proof.
  intros S foldk good is_call HS n ss C w v w' Ok Ht E Hv Hr b na np m Ha Hp.
  pose proof (returns_runs S foldk good is_call HS n ss C w [v] w' Ok Ht E Hr ltac:(discriminate)) as H.
  destruct (evals_ret S C b na np (Z.of_nat (vars_stmts ss)) 1 w m [v] w' Ha Hp ltac:(lia) ltac:(lia) H) as (m' & cur & A & B & D & F).
  exists m', cur. split; [exact A|]. rewrite Nat2Z.id in F. destruct (vars_stmts ss) as [|k]; [lia|].
  one_element F.
Qed.
Print Assumptions C150_returned_value_refuted.

(** ** C151: several returned values arrive as from a function call. *)
(** One target, one value. Missing: everything else. *)
Theorem C151_one_value_partial :
  forall S foldk good is_call, sound_fold S foldk good ->
  forall n ss C w v w', ok_stmts foldk good false false ss = true -> tidy_stmts is_call ss = true ->
  comp_fun foldk is_call n ss = Some C -> vars_stmts ss = O ->
  terminates S (exec_stmts S ss) w (ORet S [v] w') ->
  forall b na np m, 0 <= na -> 0 <= np ->
  exists m' cur, evals S C b na np (Z.of_nat (vars_stmts ss)) 1 w m w' m' cur /\
    elements m' b 1 = delivered (inl (undefv S)) 1 [v].
Proof.
  intros S foldk good is_call HS n ss C w v w' Ok Ht E Hv Hr b na np m Ha Hp.
  destruct (C150_returned_value_partial S foldk good is_call HS n ss C w v w' Ok Ht E Hv Hr b na np m Ha Hp)
    as (m' & cur & A & B & _).
  exists m', cur. split; [exact A|]. change 1%nat with (Z.to_nat 1) at 1. rewrite elements_one, B. reflexivity.
Qed.
Print Assumptions C151_one_value_partial.

(** As many targets as values: the values arrive in the opposite order, so they arrive as they
    should only if they are the same read from either end. *)
Theorem C151_order_refuted :
  forall S foldk good is_call, sound_fold S foldk good ->
  forall n ss C w vs w', ok_stmts foldk good false false ss = true -> tidy_stmts is_call ss = true ->
  comp_fun foldk is_call n ss = Some C -> vars_stmts ss = O ->
  terminates S (exec_stmts S ss) w (ORet S vs w') -> vs <> [] ->
  forall b na np m, 0 <= na -> 0 <= np ->
  exists m' cur, evals S C b na np (Z.of_nat (vars_stmts ss)) (Z.of_nat (length vs)) w m w' m' cur /\
    elements m' b (length vs) = vs /\ delivered (inl (undefv S)) (length vs) vs = rev vs.
Proof.
  intros S foldk good is_call HS n ss C w vs w' Ok Ht E Hv Hr Hne b na np m Ha Hp. rewrite Hv.
  pose proof (returns_runs S foldk good is_call HS n ss C w vs w' Ok Ht E Hr Hne) as H.
  destruct (evals_ret S C b na np 0 (Z.of_nat (length vs)) w m vs w' Ha Hp ltac:(lia) ltac:(lia) H) as (m' & cur & A & B & D & F).
  exists m', cur. split; [exact A|]. rewrite Nat2Z.id in F. split.
  - rewrite F. cbn [Z.to_nat Nat.add repeat app]. rewrite Nat.sub_diag. cbn [repeat app]. apply firstn_all.
  - unfold delivered. rewrite Nat.sub_diag. cbn [repeat]. rewrite app_nil_r, <- (rev_length vs). apply firstn_all.
Qed.
Print Assumptions C151_order_refuted.

(** More targets than values: the undefined ones come lowest, that is they go to the last targets,
    and the values follow in the opposite order. *)
Theorem C151_missing_values :
  forall S foldk good is_call, sound_fold S foldk good ->
  forall n ss C w vs w', ok_stmts foldk good false false ss = true -> tidy_stmts is_call ss = true ->
  comp_fun foldk is_call n ss = Some C ->
  terminates S (exec_stmts S ss) w (ORet S vs w') -> vs <> [] ->
  forall b na np m r, 0 <= na -> 0 <= np ->
  exists m' cur, evals S C b na np (Z.of_nat (vars_stmts ss)) (Z.of_nat r) w m w' m' cur /\
    elements m' b r =
      firstn r (repeat (inl (undefv S)) (Nat.max (vars_stmts ss) (r - length vs)) ++ vs) /\
    cur = b + Z.of_nat r /\ (forall j, j < b -> m' j = m j).
Proof.
  intros S foldk good is_call HS n ss C w vs w' Ok Ht E Hr Hne b na np m r Ha Hp.
  pose proof (returns_runs S foldk good is_call HS n ss C w vs w' Ok Ht E Hr Hne) as H.
  destruct (evals_ret S C b na np (Z.of_nat (vars_stmts ss)) (Z.of_nat r) w m vs w' Ha Hp ltac:(lia) ltac:(lia) H) as (m' & cur & A & B & D & F).
  exists m', cur. split; [exact A|]. rewrite !Nat2Z.id in F. split; [|auto]. rewrite F, app_assoc, <- repeat_app. do 2 f_equal.
  f_equal. lia.
Qed.
Print Assumptions C151_missing_values.

(** ** C152: the result of evaluating an expression is its value. *)
(** After statements without variables; missing: expressions that end with an assignment, an
    increment or a call. *)
Theorem C152_expression_partial :
  forall S foldk good is_call, sound_fold S foldk good ->
  forall pre e n C w w1 v w2, ok_stmts foldk good false false pre = true -> tidy_stmts is_call pre = true ->
  ok_expr foldk good e = true -> valued is_call e = true ->
  comp_fun foldk is_call n (snoc pre (SExprs (ECons e ENil))) = Some C -> vars_stmts pre = O ->
  terminates S (exec_stmts S pre) w (ONorm S w1) -> eval_expr S e w1 = EOk v w2 ->
  forall b na np m, 0 <= na -> 0 <= np ->
  exists m' cur, evals S C b na np (Z.of_nat (vars_stmts (snoc pre (SExprs (ECons e ENil))))) 1 w m w2 m' cur /\
    m' b = inl v /\ cur = b + 1 /\ (forall j, j < b -> m' j = m j).
Proof.
  intros S foldk good is_call HS pre e n C w w1 v w2 Ok Ht Oke Hval E Hv Hr Ev b na np m Ha Hp.
  assert (Hv' : vars_stmts (snoc pre (SExprs (ECons e ENil))) = O).
  { clear - Hv. induction pre as [|x pre IH]; [reflexivity|]. cbn [snoc vars_stmts] in *. rewrite IH; lia. }
  rewrite Hv'. pose proof (value_runs S foldk good is_call HS pre e n C w w1 v w2 Ok Ht Oke Hval E Hr Ev) as H.
  destruct (evals_ret S C b na np 0 1 w m _ w2 Ha Hp ltac:(lia) ltac:(lia) H) as (m' & cur & A & B & D & F).
  exists m', cur. split; [exact A|]. split; [|auto]. one_element F.
Qed.
Print Assumptions C152_expression_partial.

(** Every assignment, increment or call evaluated as the last statement gives undefined. *)
Lemma finish_no_reset : forall is_call x a p, with_reset is_call x <> None ->
  finish is_call true (p ++ [x]) <> a ++ [Reset].
Proof.
  intros is_call x a p H E. rewrite finish_snoc in E. destruct (with_reset is_call x) as [x'|] eqn:Ex; [|congruence].
  apply app_inj_tail in E. destruct E as (_ & ->).
  destruct x; cbn [with_reset] in Ex; try discriminate. destruct (is_call p0); discriminate.
Qed.
Lemma action_last : forall (S : Sem) foldk (good : bop -> const -> const -> bool) is_call,
  (forall a, action_operand is_call a = true -> forall c, comp_operand foldk a = Some c ->
     exists p x, c = p ++ [x] /\ with_reset is_call x <> None) /\
  (forall e, action is_call e = true -> forall c, comp_expr foldk [] e = Some c ->
     exists p x, c = p ++ [x] /\ with_reset is_call x <> None) /\
  (forall es : exprs, True) /\ (forall os : ops, True) /\ (forall tn : tern, True) /\
  (forall ts : targets, True) /\ (forall t : target, True).
Proof.
  intros S foldk good is_call.
  apply syntax_ind; try exact I; try (intros; exact I); try (intros; discriminate).
  - intros p i t _ _ c E. rewrite comp_incdec_eq in E. destruct (comp_target foldk t) as [ct|]; [|discriminate].
    inversion E; subst. eexists. eexists. split; [reflexivity|]. discriminate.
  - intros p es _ Hv c E. rewrite comp_prim_eq in E. destruct (comp_args foldk es) as [ca|]; [|discriminate].
    inversion E; subst. eexists. eexists. split; [reflexivity|]. cbn [with_reset].
    cbn [action_operand] in Hv. rewrite Hv. discriminate.
  - intros e IH Hv c E. exact (IH Hv c E).
  - intros ts _ hd IH tl _ tn _ Hv c E. destruct ts as [|t a ts].
    + destruct tl; [|discriminate]. destruct tn; [|discriminate].
      destruct (comp_expr_inv _ _ _ _ _ _ E) as (cts & chd & ctl & t & ct & E1 & E2 & E3 & E4 & E5 & Ec).
      inversion E1; subst cts. inversion E3; subst ctl. inversion E5; subst ct. inversion E4; subst t.
      assert (Hn : nomark chd) by apply (shape_operand foldk hd chd E2).
      assert (El : logic_code chd = chd).
      { destruct (logic_code_shape chd) as [(_ & El) | (Hm & _)]; [exact El|].
        rewrite !any_mark_nomark in Hm by auto. discriminate. }
      rewrite El, !app_nil_r in Ec. subst c. apply IH; [exact Hv | exact E2].
    + destruct (targets_snoc S foldk good t a ts) as (ts' & t' & a' & T1 & _).
      destruct (comp_expr_inv _ _ _ _ _ _ E) as (cts & chd & ctl & tt & ct & E1 & _ & _ & _ & _ & Ec).
      destruct (T1 _ E1) as (c1 & c2 & _ & _ & ->). subst c. eexists. eexists.
      split; [rewrite !app_assoc; reflexivity | discriminate].
Qed.
Theorem C152_expression_refuted :
  forall S foldk good is_call, sound_fold S foldk good ->
  forall pre e n C w w1 v w2, ok_stmts foldk good false false pre = true -> tidy_stmts is_call pre = true ->
  ok_expr foldk good e = true -> action is_call e = true ->
  comp_fun foldk is_call n (snoc pre (SExprs (ECons e ENil))) = Some C ->
  terminates S (exec_stmts S pre) w (ONorm S w1) -> eval_expr S e w1 = EOk v w2 ->
  forall b na np m, 0 <= na -> 0 <= np ->
  exists m' cur, evals S C b na np (Z.of_nat (vars_stmts (snoc pre (SExprs (ECons e ENil))))) 1 w m w2 m' cur /\
    m' b = inl (undefv S).
Proof.
  intros S foldk good is_call HS pre e n C w w1 v w2 Ok Ht Oke Hact E Hr Ev b na np m Ha Hp.
  set (ss := snoc pre (SExprs (ECons e ENil))) in *.
  assert (Ok' : ok_stmts foldk good false false ss = true).
  { unfold ss. clear - Ok Oke. induction pre as [|x pre IH]; cbn [snoc ok_stmts] in *.
    - change (ok_args foldk good (ECons e ENil)) with (ok_expr foldk good e && true). rewrite Oke. reflexivity.
    - apply andb_true_iff in Ok. destruct Ok as (O1 & O2). rewrite O1, IH by auto. reflexivity. }
  assert (Ht' : tidy_stmts is_call ss = true).
  { unfold ss. clear - Ht Hact. induction pre as [|x pre IH]; cbn [snoc tidy_stmts] in *.
    - cbn [tidy_stmt tidy_seq]. rewrite Hact. reflexivity.
    - apply andb_true_iff in Ht. destruct Ht as (O1 & O2). rewrite O1, IH by auto. reflexivity. }
  assert (Hr' : terminates S (exec_stmts S ss) w (ONorm S w2)).
  { destruct Hr as (f & Hf). exists f. unfold ss. clear - Hf Ev. revert w Hf. induction pre as [|x pre IH]; intros w Hf; cbn [snoc].
    - inversion Hf; subst.
      change (then_ S (Some (of_unit S (exec_seq S (ECons e ENil) w1))) (exec_stmts S SNil f) = Some (ONorm S w2)).
      assert (exec_seq S (ECons e ENil) w1 = EOk tt w2) as -> by (unfold exec_seq; cbn [dens eval_list ebind]; rewrite Ev; reflexivity).
      reflexivity.
    - change (then_ S (exec_stmt S x f w) (exec_stmts S pre f) = Some (ONorm S w1)) in Hf.
      change (then_ S (exec_stmt S x f w) (exec_stmts S (snoc pre (SExprs (ECons e ENil))) f) = Some (ONorm S w2)).
      destruct (exec_stmt S x f w) as [[w0|w0|w0|vs w0|w0]|]; cbn [then_] in *; try discriminate. apply IH. exact Hf. }
  assert (Hn : forall c a, comp_stmts foldk is_call n false false ss = Some c -> c <> a ++ [Reset]).
  { intros c a Ec Hc. destruct (comp_snoc foldk is_call pre _ n c Ec) as (c1 & c2 & E1 & E2 & ->).
    cbn [comp_stmt comp_seq] in E2. destruct (comp_expr foldk [] e) as [ce|] eqn:Ee; [|discriminate]. rewrite app_nil_r in E2.
    destruct (proj1 (proj2 (action_last S foldk good is_call)) e Hact ce Ee) as (p & x & -> & Hx).
    assert (Ex : c2 = finish is_call true (p ++ [x])) by congruence.
    destruct (exists_last (l := c2)) as (d & y & Ed).
    { rewrite Ex, finish_snoc. destruct (with_reset is_call x); destruct p; discriminate. }
    rewrite Ed, app_assoc in Hc. apply app_inj_tail in Hc. destruct Hc as (_ & ->).
    apply (finish_no_reset is_call x d p Hx). congruence. }
  destruct (norm_runs S foldk good is_call HS n ss C w w2 Ok' Ht' E Hr' Hn) as [(_ & H) | H].
  - destruct (evals_end S C b na np (Z.of_nat (vars_stmts ss)) 1 w m w2 Ha Hp ltac:(lia) ltac:(lia) H) as (m' & cur & A & _ & _ & F).
    exists m', cur. split; [exact A|]. one_element F.
  - destruct (evals_ret S C b na np (Z.of_nat (vars_stmts ss)) 1 w m _ w2 Ha Hp ltac:(lia) ltac:(lia) H) as (m' & cur & A & _ & _ & F).
    exists m', cur. split; [exact A|]. rewrite Nat2Z.id in F.
    destruct (vars_stmts ss) as [|k]; one_element F.
Qed.
Print Assumptions C152_expression_refuted.

(** ** C153: the call leaves the rest of the caller's stack alone. *)
(** If there are no more fields than arguments of the call, or the code is patched. *)
Theorem C153_stack_partial :
  forall S foldk good is_call, sound_fold S foldk good ->
  forall n ss C, ok_stmts foldk good false false ss = true -> comp_fun foldk is_call n ss = Some C ->
  forall b na np nl r w m w' m' cur, 0 <= na -> 0 <= np -> 0 <= nl -> 0 <= r ->
  np <= na \/ eval_code C <> C ->
  evals S C b na np nl r w m w' m' cur -> cur = b + r /\ forall j, j < b -> m' j = m j.
Proof.
  intros S foldk good is_call HS n ss C Ok E b na np nl r w m w' m' cur Ha Hp Hl Hr Hg (f & Hf & -> & Em).
  symmetry in Em. destruct f as [w1 vs|w1]; cbn [vals_of] in Em.
  - destruct (call_returned _ _ b na np nl r vs m m' cur Ha Hp Hl Hr Em) as (A & B & _). auto.
  - destruct (call_ended _ _ b na np nl r m m' cur Ha Hp Hl Hr Em) as (A & B & _). split; [exact A|].
    destruct Hg as [Hg | Hg].
    + intros j Hj. rewrite B by auto. destruct (Z.leb_spec (b + na - np) j); [lia | reflexivity].
    + destruct (patched_no_end S foldk good is_call n ss C w w1 Ok E Hg Hf).
Qed.
Print Assumptions C153_stack_partial.

(** Otherwise, every text that ends without return overwrites the caller's elements below. *)
Theorem C153_stack_refuted :
  forall S foldk good is_call, sound_fold S foldk good ->
  forall n ss C w w1, ok_stmts foldk good false false ss = true -> tidy_stmts is_call ss = true ->
  comp_fun foldk is_call n ss = Some C -> terminates S (exec_stmts S ss) w (ONorm S w1) -> eval_code C = C ->
  forall b na np r m, 0 <= na -> na < np -> 0 <= r ->
  exists m' cur, evals S C b na np (Z.of_nat (vars_stmts ss)) r w m w1 m' cur /\
    (forall j, b - (np - na) <= j < b -> m' j = inl (undefv S)).
Proof.
  intros S foldk good is_call HS n ss C w w1 Ok Ht E Hr E0 b na np r m Ha Hp Hr0.
  pose proof (unpatched_end S foldk good is_call HS n ss C w w1 Ok Ht E Hr E0) as H.
  destruct (evals_end S C b na np (Z.of_nat (vars_stmts ss)) r w m w1 Ha ltac:(lia) ltac:(lia) Hr0 H) as (m' & cur & A & _ & B & _).
  exists m', cur. split; [exact A|]. intros j Hj. rewrite B by lia. destruct (Z.leb_spec (b + na - np) j); [reflexivity | lia].
Qed.
Print Assumptions C153_stack_refuted.

(** ** C154: the change made to the code does not change what the program does. *)
Theorem C154_same_effects : forall S c w w' vs,
  (ends S (c ++ [EndFun]) w (Done S w' vs) ->
   exists vs', ends S (eval_code (c ++ [EndFun])) w (Done S w' vs') /\ (vs <> [] -> vs' = vs)) /\
  (ends S (c ++ [EndFun]) w (Failed S w') -> ends S (eval_code (c ++ [EndFun])) w (Failed S w')) /\
  (endless S (c ++ [EndFun]) w -> endless S (eval_code (c ++ [EndFun])) w).
Proof.
  intros S c w w' vs. destruct (eval_code_shape c) as [-> | (p & t & Ht & E1 & ->)].
  - split; [|split]; auto. intros H. exists vs. auto.
  - rewrite E1. split; [|split].
    + intros (s & Hs & E). destruct (patched_ends S p t _ _ Ht Hs w' vs) as (F & _).
      destruct (F E) as (s2 & vs2 & A & B & D). exists vs2. split; [exists s2; auto|]. intros H. apply (D H).
    + intros (s & Hs & E). destruct (patched_ends S p t _ _ Ht Hs w' vs) as (_ & F). exists s. exact (F E).
    + intros H. eapply patched_endless; eauto.
Qed.
Print Assumptions C154_same_effects.

(** ** C155: the text that runs is the text given. *)
Lemma unesc_le : forall n l f, (length l <= n)%nat -> (n < f)%nat -> (length (unesc f l) <= length l)%nat.
Proof.
  induction n as [|n IH]; intros l f Hl Hf.
  - destruct l; [destruct f; cbn; lia | cbn in Hl; lia].
  - destruct f as [|f]; [lia|]. destruct l as [|c [|e l]]; [cbn; lia | cbn; lia|]. cbn [unesc].
    cbn [length] in Hl. destruct (c =? 92).
    + rewrite app_length. pose proof (IH l f ltac:(lia) ltac:(lia)).
      repeat match goal with |- context [if ?x then _ else _] => destruct x end; cbn [length]; lia.
    + cbn [length]. pose proof (IH (e :: l) f ltac:(cbn [length]; lia) ltac:(lia)). cbn [length] in H. lia.
Qed.
Lemma unesc_lt : forall n l f, (length l <= n)%nat -> (n < f)%nat -> In backslash (removelast l) ->
  (length (unesc f l) < length l)%nat.
Proof.
  induction n as [|n IH]; intros l f Hl Hf Hin.
  - destruct l; [contradiction | cbn in Hl; lia].
  - destruct f as [|f]; [lia|]. destruct l as [|c [|e l]]; [contradiction | contradiction|]. cbn [unesc].
    cbn [length] in Hl. destruct (Z.eqb_spec c 92) as [-> | Hc].
    + rewrite app_length. pose proof (unesc_le n l f ltac:(lia) ltac:(lia)).
      repeat match goal with |- context [if ?x then _ else _] => destruct x end; cbn [length]; lia.
    + cbn [length]. assert (H : In backslash (removelast (e :: l))).
      { change (removelast (c :: e :: l)) with (c :: removelast (e :: l)) in Hin. destruct Hin as [H | H]; [contradiction Hc; exact H | exact H]. }
      pose proof (IH (e :: l) f ltac:(cbn [length]; lia) ltac:(lia) H). cbn [length] in *. lia.
Qed.
Lemma unesc_id : forall n l f, (length l <= n)%nat -> (n < f)%nat -> ~ In backslash (removelast l) -> unesc f l = l.
Proof.
  induction n as [|n IH]; intros l f Hl Hf Hin.
  - destruct l; [destruct f; reflexivity | cbn in Hl; lia].
  - destruct f as [|f]; [lia|]. destruct l as [|c [|e l]]; [reflexivity | reflexivity|]. cbn [unesc].
    change (removelast (c :: e :: l)) with (c :: removelast (e :: l)) in Hin.
    destruct (Z.eqb_spec c 92) as [-> | Hc]; [destruct Hin; left; reflexivity|].
    f_equal. apply IH; [cbn [length] in *; lia | lia |]. intros H. apply Hin. right. exact H.
Qed.
(** Without a backslash (a last character aside); missing: texts with one. *)
Theorem C155_text_partial : forall s l, srep s l -> ~ In backslash (removelast l) ->
  exists r, eval_text s = Ok r /\ srep r l.
Proof.
  intros s l R H. destruct (unescape_ok s l R) as (r & E & Rr). exists r. split; [exact E|].
  rewrite (unesc_id (length l)) in Rr by (auto; lia). exact Rr.
Qed.
Print Assumptions C155_text_partial.
Theorem C155_text_refuted : forall s l, srep s l -> In backslash (removelast l) ->
  exists r l', eval_text s = Ok r /\ srep r l' /\ (length l' < length l)%nat.
Proof.
  intros s l R H. destruct (unescape_ok s l R) as (r & E & Rr). exists r. eexists. split; [exact E|]. split; [exact Rr|].
  apply (unesc_lt (length l)); auto; lia.
Qed.
Print Assumptions C155_text_refuted.

(** ** Cases. *)
Definition nocall : Z -> bool := fun _ => false.
(** The stack of a caller: its elements hold their own position. *)
Definition m0 : mem (slot Zx) := fun j => inl (ZI j).
(** The call with two arguments from position 10 on; [np] parameters. *)
Definition outcome (ss : stmts) (w : zworld) (np : Z) (r : nat) (fuel : nat) : option (list (slot Zx) * list (slot Zx)) :=
  match comp_fun foldx nocall 1 ss with
  | Some c =>
      let C := eval_code c in
      match exec Zx fuel C (St Zx 0 [] w []) with
      | Done _ _ l =>
          let e := match l with [] => None | _ => Some (rev l) end in
          let '(m', _) := eval_call (inl ZU) 10 2 np (Z.of_nat (vars_stmts ss)) (Z.of_nat r) e m0 in
          Some (elements m' 6 4, elements m' 10 r)
      | _ => None
      end
  | None => None
  end.
(** return a+b with a=2, b=10, as in the project's test. *)
Definition C150_sum : stmts := one (SReturn (ECons (Expr TgNil a_ (OCons O_ADD b_ ONil) TNone) ENil)).
Example C150_case : ok_stmts foldx goodx false false C150_sum = true /\ tidy_stmts nocall C150_sum = true /\
  vars_stmts C150_sum = O /\
  match exec_stmts Zx C150_sum 5%nat (world [ZI 2; ZI 10]) with Some (ORet _ [inl v] _) => v = ZI 12 | _ => False end /\
  outcome C150_sum (world [ZI 2; ZI 10]) 2 1 20 = Some ([inl (ZI 6); inl (ZI 7); inl (ZI 8); inl (ZI 9)], [inl (ZI 12)]).
Proof. repeat split; vm_compute; reflexivity. Qed.
(** var c=a+b; return c *)
Definition C150_var : stmts :=
  SCons (SVar (Local 2) (Some (Expr TgNil a_ (OCons O_ADD b_ ONil) TNone))) (one (ret_ c_)).
Example C150_refuted_case : ok_stmts foldx goodx false false C150_var = true /\ tidy_stmts nocall C150_var = true /\
  vars_stmts C150_var = 1%nat /\
  match exec_stmts Zx C150_var 5%nat (world [ZI 2; ZI 10]) with Some (ORet _ [inl v] _) => v = ZI 12 | _ => False end /\
  outcome C150_var (world [ZI 2; ZI 10]) 2 1 20 = Some ([inl (ZI 6); inl (ZI 7); inl (ZI 8); inl (ZI 9)], [inl ZU]).
Proof. repeat split; vm_compute; reflexivity. Qed.
(** return a,b: the stack [a; b] instead of [b; a]. *)
Definition C151_two : stmts := one (SReturn (ECons (e1_ a_) (ECons (e1_ b_) ENil))).
Example C151_case : ok_stmts foldx goodx false false C151_two = true /\ vars_stmts C151_two = O /\
  outcome C151_two (world [ZI 2; ZI 10]) 2 2 20 =
    Some ([inl (ZI 6); inl (ZI 7); inl (ZI 8); inl (ZI 9)], [inl (ZI 2); inl (ZI 10)]) /\
  @delivered (slot Zx) (inl ZU) 2 [inl (ZI 2); inl (ZI 10)] = [inl (ZI 10); inl (ZI 2)].
Proof. repeat split; vm_compute; reflexivity. Qed.
(** a=1; a+b against a=7 *)
Definition C152_e := Expr TgNil a_ (OCons O_ADD b_ ONil) TNone.
Example C152_case : valued nocall C152_e = true /\ ok_expr foldx goodx C152_e = true /\
  outcome (snoc (one (st_ (set_ 0 (int_ 1)))) (st_ C152_e)) (world [ZI 2; ZI 10]) 2 1 20 =
    Some ([inl (ZI 6); inl (ZI 7); inl (ZI 8); inl (ZI 9)], [inl (ZI 11)]).
Proof. repeat split; vm_compute; reflexivity. Qed.
Example C152_refuted_case : action nocall (set_ 0 (int_ 7)) = true /\ ok_expr foldx goodx (set_ 0 (int_ 7)) = true /\
  outcome (snoc SNil (st_ (set_ 0 (int_ 7)))) (world [ZI 2; ZI 10]) 2 1 20 =
    Some ([inl (ZI 6); inl (ZI 7); inl (ZI 8); inl (ZI 9)], [inl ZU]).
Proof. repeat split; vm_compute; reflexivity. Qed.
(** if(a==1){return 5;} with four fields, a=2: two elements of the caller are lost. *)
Definition C153_if : stmts := one (SIf (eq_ x_ (int_ 1)) (Blk 1 (one (ret_ (int_ 5)))) ElNone).
Example C153_case : ok_stmts foldx goodx false false C153_if = true /\ tidy_stmts nocall C153_if = true /\
  match comp_fun foldx nocall 1 C153_if with Some c => eval_code c = c | None => False end /\
  outcome C153_if (world [ZI 2]) 4 1 20 = Some ([inl (ZI 6); inl (ZI 7); inl ZU; inl ZU], [inl ZU]) /\
  outcome C153_if (world [ZI 1]) 4 1 20 = Some ([inl (ZI 6); inl (ZI 7); inl (ZI 8); inl (ZI 9)], [inl (ZI 5)]).
Proof. repeat split; vm_compute; reflexivity. Qed.
(** a+b: the instruction that drops the value becomes the one that returns. *)
Example C154_case : exists i,
  comp_fun foldx nocall 1 (snoc SNil (st_ C152_e)) = Some [i; Reset; EndFun] /\
  eval_code [i; Reset; EndFun] = [i; LoadUndef; Ret].
Proof. eexists. split; vm_compute; reflexivity. Qed.
(** The text with a\n: the text has a backslash and an n, the program a line break. *)
Example C155_case :
  (do s <- s_lit [97; 92; 110]; do r <- eval_text s; Ok (cstr (cchars r) 0)) = Ok (Some [97; 10]) /\
  (do s <- s_lit [97; 110]; do r <- eval_text s; Ok (cstr (cchars r) 0)) = Ok (Some [97; 110]).
Proof. split; vm_compute; reflexivity. Qed.
(** Every kind of statement with a declaration inside counts its variables. *)
Definition C150_decl (i : nat) : stmts := one (SVar (Local i) None).
Example C150_vars_case :
  let b := Blk 1 (C150_decl 3) in
  map vars_stmt
    [SVar (Local 3) None; SBlock b; SIf (e1_ x_) b ElNone; SIf (e1_ x_) b (ElBlock b); SIf (e1_ x_) b (ElIf (e1_ x_) b (ElBlock b));
     SWhile (e1_ x_) b; SDo b (e1_ x_); SFor 1 (FiVars [(Local 4, None); (Local 5, None)]) None ENil b;
     SForIn 1 [4%nat; 5%nat] 6 a_ b; SSwitch (e1_ x_) (CCons [] (C150_decl 3) false (CCons [] (C150_decl 4) true CNil));
     st_ (e1_ x_); SReturn ENil; SBreak]
  = [1; 1; 1; 2; 3; 1; 1; 3; 4; 2; 0; 0; 0]%nat.
Proof. reflexivity. Qed.
