(** Programs under System::eval. *)
From Coq Require Import ZArith List Bool Lia.
From Verif Require Import Base FloatModel ExprModel VmModel ExprSpec ExprTree ExprShape ExprProofs
  StmtModel StmtSpec StmtShape StmtProofs ExprProps StmtProps EvalModel EvalSpec EvalProofs EvalCode.
Import ListNotations.
Local Open Scope Z_scope.

(** ** How the activation ends is determined by the code. *)
Section Det.
Variable S : Sem.
Lemma runs_det : forall C w f1 f2, runs_to S C w f1 -> runs_to S C w f2 -> f1 = f2.
Proof.
  intros C w f1 f2 (s1 & A1 & B1) (s2 & A2 & B2).
  assert (Hd : forall s f, match f with
     | FRet _ w' vs => nth_error C (pc S s) = Some Ret /\ w' = leave_all S (scs S s) (wd S s) /\ vs = rev (sk S s)
     | FEnd _ w' => nth_error C (pc S s) = Some EndFun /\ w' = leave_all S (scs S s) (wd S s)
     end -> forall s', step S C s <> Next S s').
  { intros s f H s' E. unfold step in E. destruct f; destruct H as (H & _); rewrite H in E; discriminate. }
  assert (E : s1 = s2) by (eapply steps_det; [exact A1 | exact A2 | reflexivity | reflexivity | apply (Hd _ f1 B1) | apply (Hd _ f2 B2)]).
  subst s2. destruct f1, f2; destruct B1 as (B1 & B1'); destruct B2 as (B2 & B2'); try congruence.
  destruct B1', B2'. subst. reflexivity.
Qed.
Lemma evals_det : forall C b na np nl r w m w1 m1 c1 w2 m2 c2,
  evals S C b na np nl r w m w1 m1 c1 -> evals S C b na np nl r w m w2 m2 c2 -> w1 = w2 /\ m1 = m2 /\ c1 = c2.
Proof.
  intros C b na np nl r w m w1 m1 c1 w2 m2 c2 (f1 & A1 & -> & B1) (f2 & A2 & -> & B2).
  rewrite (runs_det _ _ _ _ A1 A2) in *. rewrite <- B2 in B1. inversion B1. auto.
Qed.

(** An end with values is a RET. *)
Lemma done_ret : forall C s w vs, step S C s = Done S w vs -> vs <> [] ->
  nth_error C (pc S s) = Some Ret /\ w = leave_all S (scs S s) (wd S s) /\ vs = sk S s.
Proof.
  intros C s w vs E Hv. unfold step in E. destruct (nth_error C (pc S s)) as [i|]; [|discriminate].
  unfold of_ev, pushed, jump in E.
  destruct i; repeat match type of E with context [match ?x with _ => _ end] => destruct x; try discriminate end;
    inversion E; subst; try contradiction; auto.
Qed.
Lemma ends_values : forall c w w' vs, vs <> [] -> ends S (c ++ [EndFun]) w (Done S w' vs) ->
  runs_to S (eval_code (c ++ [EndFun])) w (FRet S w' (rev vs)).
Proof.
  intros c w w' vs Hv (s & Hs & E).
  assert (G : exists s, steps S (eval_code (c ++ [EndFun])) (St S 0 [] w []) s /\
                        step S (eval_code (c ++ [EndFun])) s = Done S w' vs).
  { destruct (eval_code_shape c) as [-> | (p & t & Ht & E1 & ->)]; [exists s; auto|].
    rewrite E1 in *. destruct (patched_ends S p t _ _ Ht Hs w' vs) as (F & _).
    destruct (F E) as (s2 & vs2 & A & B & D). destruct (D Hv) as (-> & ->). exists s. auto. }
  destruct G as (s2 & A & B). destruct (done_ret _ _ _ _ B Hv) as (B1 & B2 & B3).
  exists s2. split; [exact A|]. split; [exact B1|]. split; [exact B2|]. rewrite B3. reflexivity.
Qed.
End Det.

Section Programs.
Variable S : Sem.
Variable foldk : bop -> const -> const -> fold.
Variable good : bop -> const -> const -> bool.
Variable is_call : Z -> bool.
Hypothesis HS : sound_fold S foldk good.
Notation ok_expr := (ok_expr foldk good).
Notation comp_fun := (comp_fun foldk is_call).
Notation comp_stmts := (comp_stmts foldk is_call).

Lemma comp_fun_inv : forall n ss C, comp_fun n ss = Some C -> exists c, comp_stmts n false false ss = Some c /\ C = c ++ [EndFun].
Proof.
  intros n ss C E. unfold StmtModel.comp_fun in E. destruct (comp_stmts n false false ss) as [c|]; [|discriminate].
  exists c. split; [reflexivity | congruence].
Qed.

(** A text that returns values. *)
Lemma returns_runs : forall n ss C w vs w', ok_stmts foldk good false false ss = true -> tidy_stmts is_call ss = true ->
  comp_fun n ss = Some C -> terminates S (exec_stmts S ss) w (ORet S vs w') -> vs <> [] ->
  runs_to S (eval_code C) w (FRet S w' vs).
Proof.
  intros n ss C w vs w' Ok Ht E Hr Hv.
  destruct (C40_function_partial S foldk good is_call HS n ss C w _ Ok E Hr) as (g & A & B).
  rewrite (B Ht), app_nil_r in A. destruct (comp_fun_inv _ _ _ E) as (c & _ & ->).
  rewrite <- (rev_involutive vs). apply ends_values; [|exact A].
  intros H. apply Hv. rewrite <- (rev_involutive vs), H. reflexivity.
Qed.

(** Statements at the start of any code. *)
Lemma prefix_runs : forall ss n c w w1 t, ok_stmts foldk good false false ss = true -> tidy_stmts is_call ss = true ->
  comp_stmts n false false ss = Some c -> terminates S (exec_stmts S ss) w (ONorm S w1) ->
  steps S (c ++ t) (St S 0 [] w []) (St S (length c) [] w1 []).
Proof.
  intros ss n c w w1 t Ok Ht E (f & Er). destruct HS as (H1 & H2).
  pose proof (proj1 (proj2 (proj2 (proj2 (statements_marks is_call foldk good)))) ss n false false c false false Ok E) as Hm.
  pose proof (proj1 (proj2 (proj2 (proj2 (statements_correct S is_call foldk good H1 H2)))) ss n false false c false false Ok E) as Hs.
  assert (HC : code_at (c ++ t) 0 (link (Z.of_nat 0) (Z.of_nat 0) (Z.of_nat 0) c)).
  { rewrite link_nobc by (eapply marks_nobc; exact Hm). exists [], t. split; reflexivity. }
  specialize (Hs (c ++ t) 0%nat 0%nat 0%nat f [] w [] _ HC ltac:(cbn; lia) Er). cbn [outc sk Nat.add] in Hs.
  destruct Hs as (s' & A & B). rewrite (B Ht eq_refl) in A. exact A.
Qed.

(** A text that ends without return and whose code does not end with RESET_STACK: its results
    are undefined. *)
Lemma norm_runs : forall n ss C w w1, ok_stmts foldk good false false ss = true -> tidy_stmts is_call ss = true ->
  comp_fun n ss = Some C -> terminates S (exec_stmts S ss) w (ONorm S w1) ->
  (forall c a, comp_stmts n false false ss = Some c -> c <> a ++ [Reset]) ->
  (eval_code C = C /\ runs_to S (eval_code C) w (FEnd S w1)) \/ runs_to S (eval_code C) w (FRet S w1 [inl (undefv S)]).
Proof.
  intros n ss C w w1 Ok Ht E Hr Hn. destruct (comp_fun_inv _ _ _ E) as (c & Ec & ->).
  destruct (eval_code_cases c) as [(E0 & _) | [(a & _ & -> & E0) | (a & x & _ & -> & _ & _ & E0)]].
  - left. split; [exact E0|]. rewrite E0. exists (St S (length c) [] w1 []). split; [eapply prefix_runs; eauto|].
    cbn [pc scs wd leave_all]. rewrite nth_error_app2, Nat.sub_diag by lia. auto.
  - destruct (Hn _ a Ec eq_refl).
  - right. rewrite E0. set (c := a ++ [x]) in *. exists (St S (length c + 1) [inl (undefv S)] w1 []). split.
    + eapply steps_snoc; [eapply (prefix_runs ss n c w w1 [LoadUndef; Ret]); eauto|].
      unfold step. cbn [pc sk wd scs]. rewrite nth_error_app2, Nat.sub_diag by lia. cbn [nth_error]. unfold pushed.
      rewrite Nat.add_1_r. reflexivity.
    + cbn [pc scs wd sk leave_all rev app]. rewrite nth_error_app2 by lia. rewrite Nat.add_comm, Nat.add_sub. auto.
Qed.
Lemma unpatched_end : forall n ss C w w1, ok_stmts foldk good false false ss = true -> tidy_stmts is_call ss = true ->
  comp_fun n ss = Some C -> terminates S (exec_stmts S ss) w (ONorm S w1) -> eval_code C = C ->
  runs_to S (eval_code C) w (FEnd S w1).
Proof.
  intros n ss C w w1 Ok Ht E Hr E0. destruct (comp_fun_inv _ _ _ E) as (c & Ec & ->).
  rewrite E0. exists (St S (length c) [] w1 []). split; [eapply prefix_runs; eauto|].
  cbn [pc scs wd leave_all]. rewrite nth_error_app2, Nat.sub_diag by lia. auto.
Qed.

(** Patched code does not end with END_FUNCTION. *)
Lemma patched_no_end : forall n ss C w w1, ok_stmts foldk good false false ss = true ->
  comp_fun n ss = Some C -> eval_code C <> C -> ~ runs_to S (eval_code C) w (FEnd S w1).
Proof.
  intros n ss C w w1 Ok E Hne (s & _ & Hn & _). destruct (comp_fun_inv _ _ _ E) as (c & Ec & ->).
  pose proof (proj1 (proj2 (proj2 (proj2 (statements_noend S foldk good is_call)))) ss n false false c false false Ok Ec) as H.
  apply nth_error_In in Hn.
  destruct (eval_code_cases c) as [(E0 & _) | [(a & _ & -> & E0) | (a & x & _ & -> & _ & _ & E0)]]; rewrite E0 in *.
  - contradiction.
  - apply noend_app in H. destruct H as (H & _). apply in_app_or in Hn. destruct Hn as [Hn | [Hn | [Hn | []]]]; try discriminate.
    unfold noend in H. rewrite Forall_forall in H. exact (H _ Hn eq_refl).
  - apply in_app_or in Hn. destruct Hn as [Hn | [Hn | [Hn | []]]]; try discriminate.
    unfold noend in H. rewrite Forall_forall in H. exact (H _ Hn eq_refl).
Qed.

(** ** A text that ends with an expression. *)
Lemma comp_snoc : forall pre s n c, comp_stmts n false false (snoc pre s) = Some c ->
  exists c1 c2, comp_stmts n false false pre = Some c1 /\ comp_stmt foldk is_call n false false s = Some c2 /\ c = c1 ++ c2.
Proof.
  induction pre as [|x pre IH]; intros s n c E; cbn [snoc StmtModel.comp_stmts] in *.
  - sub E c1 E1. inversion E; subst. exists [], c1. rewrite app_nil_r. auto.
  - sub E c1 E1. sub E c2 E2. destruct (IH _ _ _ E2) as (c3 & c4 & A & B & ->). inversion E; subst.
    exists (c1 ++ c3), c4. rewrite A, B, app_assoc. auto.
Qed.

Lemma ptree_leaf : forall c t, ptree foldk (tree_of c []) = Some t -> t = c.
Proof. intros c t E. inversion E. reflexivity. Qed.
Lemma valued_last :
  (forall a, valued_operand is_call a = true -> forall c, comp_operand foldk a = Some c ->
     exists p x, c = p ++ [x] /\ with_reset is_call x = None) /\
  (forall e, valued is_call e = true -> forall c, comp_expr foldk [] e = Some c ->
     exists p x, c = p ++ [x] /\ with_reset is_call x = None) /\
  (forall es : exprs, True) /\ (forall os : ops, True) /\
  (forall tn, match tn with TNone => True | TSome _ e2 => valued is_call e2 = true -> forall c, comp_expr foldk [] e2 = Some c ->
     exists p x, c = p ++ [x] /\ with_reset is_call x = None end) /\
  (forall ts : targets, True) /\ (forall t : target, True).
Proof.
  apply syntax_ind; try exact I; try (intros; exact I);
    try (intros; match goal with H : comp_operand _ _ = Some ?c |- _ => inversion H; subst end; exists []; eexists; split; reflexivity);
    try (intros; discriminate).
  - intros p es _ Hv c E. rewrite comp_prim_eq in E. destruct (comp_args foldk es) as [ca|]; [|discriminate].
    inversion E; subst. eexists. eexists. split; [reflexivity|]. cbn [with_reset].
    cbn [valued_operand] in Hv. destruct (is_call p); [discriminate | reflexivity].
  - intros e IH Hv c E. exact (IH Hv c E).
  - intros u a _ _ c E. rewrite comp_un_eq in E. destruct (comp_operand foldk a) as [ca|]; [|discriminate].
    inversion E; subst. eexists. eexists. split; reflexivity.
  - intros ts _ hd IH tl _ tn Htn Hv c E. destruct ts as [|t a ts]; [|destruct tl, tn; discriminate].
    destruct (comp_expr_inv _ _ _ _ _ _ E) as (cts & chd & ctl & t & ct & E1 & E2 & E3 & E4 & E5 & Ec).
    inversion E1; subst cts.
    destruct tn as [|e1 e2].
    + destruct tl as [|o a tl].
      * inversion E3; subst ctl. inversion E5; subst ct. inversion E4; subst t.
        assert (Hn : nomark chd) by apply (shape_operand foldk hd chd E2).
        assert (El : logic_code chd = chd).
        { destruct (logic_code_shape chd) as [(_ & El) | (Hm & _)]; [exact El|].
          rewrite !any_mark_nomark in Hm by auto. discriminate. }
        rewrite El, !app_nil_r in Ec. subst c. apply IH; [exact Hv | exact E2].
      * eapply (operators_last) with (e := Expr TgNil hd (OCons o a tl) TNone); [reflexivity | exact E].
    + assert (Hv2 : valued is_call e2 = true) by (destruct tl; exact Hv).
      cbn [tcode] in E5. destruct (comp_expr foldk [] e1) as [c1|]; [|discriminate].
      destruct (comp_expr foldk [] e2) as [c2|] eqn:E6; [|discriminate].
      destruct (Htn Hv2 _ eq_refl) as (p & x & -> & Hx). inversion E5; subst ct. subst c.
      rewrite app_nil_r. eexists. exists x. split; [|exact Hx].
      change (Jnt NoMark (Z.of_nat (length c1) + 2) :: c1 ++ Jmp NoMark (Z.of_nat (length (p ++ [x])) + 1) :: p ++ [x])
        with ((Jnt NoMark (Z.of_nat (length c1) + 2) :: c1) ++ (Jmp NoMark (Z.of_nat (length (p ++ [x])) + 1) :: p) ++ [x]).
      rewrite !app_assoc. reflexivity.
  - intros e1 _ e2 IH2. exact IH2.
Qed.

Lemma value_runs : forall pre e n C w w1 v w2, ok_stmts foldk good false false pre = true -> tidy_stmts is_call pre = true ->
  ok_expr e = true -> valued is_call e = true -> comp_fun n (snoc pre (SExprs (ECons e ENil))) = Some C ->
  terminates S (exec_stmts S pre) w (ONorm S w1) -> eval_expr S e w1 = EOk v w2 ->
  runs_to S (eval_code C) w (FRet S w2 [inl v; inl (undefv S)]).
Proof.
  intros pre e n C w w1 v w2 Ok Ht Oke Hv E Hr Ev. destruct (comp_fun_inv _ _ _ E) as (c & Ec & ->).
  destruct (comp_snoc _ _ _ _ Ec) as (c1 & c2 & E1 & E2 & ->).
  cbn [comp_stmt comp_seq] in E2. destruct (comp_expr foldk [] e) as [ce|] eqn:Ee; [|discriminate]. rewrite app_nil_r in E2.
  destruct (proj1 (proj2 valued_last) e Hv ce Ee) as (p & x & Ep & Hx).
  assert (E3 : c2 = ce ++ [Reset]).
  { inversion E2. rewrite Ep, finish_snoc, Hx, <- app_assoc. reflexivity. }
  subst c2.
  assert (E0 : eval_code ((c1 ++ ce ++ [Reset]) ++ [EndFun]) = (c1 ++ ce) ++ [LoadUndef; Ret]).
  { destruct (eval_code_cases (c1 ++ ce ++ [Reset])) as [(E0 & H0) | [(a & _ & Ha & E0) | (a & y & _ & Ha & _ & Hy & _)]].
    - destruct H0 as [H0 | (a & Ha)].
      + rewrite !app_length, Ep, app_length in H0. cbn [length] in H0. lia.
      + rewrite app_assoc in Ha. apply app_inj_tail in Ha. destruct Ha. discriminate.
    - rewrite E0. rewrite app_assoc in Ha. apply app_inj_tail in Ha. destruct Ha as (<- & _). reflexivity.
    - rewrite app_assoc in Ha. apply app_inj_tail in Ha. destruct Ha as (_ & <-). congruence. }
  rewrite E0.
  assert (Hc : computes S ce (eval_expr S e)) by (destruct HS; eapply expr_ok; eauto).
  assert (HCe : code_at ((c1 ++ ce) ++ [LoadUndef; Ret]) (length c1) ce).
  { exists c1, [LoadUndef; Ret]. split; [rewrite <- app_assoc; reflexivity | reflexivity]. }
  specialize (Hc _ _ [] w1 [] HCe). rewrite Ev in Hc. rewrite <- app_length in Hc.
  exists (St S (length (c1 ++ ce) + 1) [inl (undefv S); inl v] w2 []). split.
  - eapply steps_snoc.
    + eapply steps_trans; [|exact Hc]. rewrite <- app_assoc. eapply (prefix_runs pre n c1 w w1); eauto.
    + unfold step. cbn [pc sk wd scs]. rewrite nth_error_app2, Nat.sub_diag by lia. cbn [nth_error]. unfold pushed.
      rewrite Nat.add_1_r. reflexivity.
  - cbn [pc scs wd sk leave_all rev app]. rewrite nth_error_app2 by lia. rewrite Nat.add_comm, Nat.add_sub. auto.
Qed.
End Programs.
