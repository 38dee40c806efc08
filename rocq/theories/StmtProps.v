(** Properties of compiled statements (C37, C39-C43). *)
From Coq Require Import ZArith List Bool Lia.
From Coq Require Import SpecFloat.
From Verif Require Import Base FloatModel ValueModel ExprModel VmModel ExprSpec ExprTree ExprShape ExprProofs
  ValueProofs FoldModel FoldSpec FoldProofs ExprZs ExprProps StmtModel StmtSpec StmtShape StmtProofs.
Import ListNotations.
Local Open Scope Z_scope.

Lemma outc_does : forall S C st0 t sc q b k bok kok r,
  outc S C st0 t sc q b k bok kok r -> does S C st0 sc q b k r.
Proof.
  intros S C st0 t sc q b k bok kok r H. destruct r; cbn [outc does] in *.
  - destruct H as (s & H & _). eauto.
  - destruct H as (_ & s & H & _). eauto.
  - destruct H as (_ & s & H & _). eauto.
  - destruct H as (s2 & g & H & H2 & _). eauto.
  - exact H.
Qed.

(** Every statement does what the specification says.  Missing for "every
    statement": expressions outside [ok_expr] (C31-C36), break and continue in a
    block that declares variables (C43), switches without case label or body
    (C42), case labels that are not one load, for without condition but with
    initialisation (C40), multiple assignment from one call. *)
Theorem C40_statement_partial :
  forall S foldk good is_call, sound_fold S foldk good ->
  forall s n lp sw c bok kok, ok_stmt foldk good bok kok s = true ->
  comp_stmt foldk is_call n lp sw s = Some c ->
  forall C p b k st w sc r, code_at C p (link (Z.of_nat b) (Z.of_nat k) (Z.of_nat p) c) -> (length sc <= n)%nat ->
  terminates S (exec_stmt S s) w r ->
  does S C (St S p st w sc) sc (p + length c) b k r.
Proof.
  intros S foldk good is_call (H1 & H2) s n lp sw c bok kok Ok E C p b k st w sc r HC Hl (f & Er).
  eapply outc_does, (proj1 (statements_correct S is_call foldk good H1 H2) s n lp sw c bok kok Ok E); eauto.
Qed.
Print Assumptions C40_statement_partial.

(** A function: it ends with exactly the values of its return statement (none if
    it has none) in the world the specification gives.  [g]: values that
    statements before the return left on the stack; there are none if every
    statement is tidy. *)
Theorem C40_function_partial :
  forall S foldk good is_call, sound_fold S foldk good ->
  forall n ss C w r, ok_stmts foldk good false false ss = true -> comp_fun foldk is_call n ss = Some C ->
  terminates S (exec_stmts S ss) w r ->
  match r with
  | ONorm _ w' => ends S C w (Done S w' [])
  | ORet _ vs w' => exists g, ends S C w (Done S w' (rev vs ++ g)) /\ (tidy_stmts is_call ss = true -> g = [])
  | OErr _ w' => ends S C w (Failed S w')
  | OBrk _ _ | OCont _ _ => False
  end.
Proof.
  intros S foldk good is_call (H1 & H2) n ss C w r Ok E (f & Er).
  exact (function_correct S is_call foldk good H1 H2 n ss C f w r Ok E Er).
Qed.
Print Assumptions C40_function_partial.

(** The machine is deterministic, so these ends are the only ones. *)
Lemma steps_det : forall S C s1 s2 s3 r2 r3, steps S C s1 s2 -> steps S C s1 s3 ->
  step S C s2 = r2 -> step S C s3 = r3 -> (forall s, r2 <> Next S s) -> (forall s, r3 <> Next S s) -> s2 = s3.
Proof.
  intros S C s1 s2 s3 r2 r3 H. revert s3 r2 r3. induction H as [s|s1 s2 s3 H1 H2 IH]; intros s4 r2 r3 H3 E2 E3 N2 N3.
  - inversion H3; subst; [reflexivity|]. exfalso. eapply N2; eauto.
  - destruct H3 as [s4 | s1 s5 s4 H4 H5].
    + exfalso. eapply N3. rewrite <- E3. exact H1.
    + assert (s5 = s2) by congruence. subst s5. eapply IH; eauto.
Qed.
Theorem C40_function_result_unique : forall S C w r1 r2,
  ends S C w r1 -> ends S C w r2 -> (forall s, r1 <> Next S s) -> (forall s, r2 <> Next S s) -> r1 = r2.
Proof.
  intros S C w r1 r2 (s1 & H1 & E1) (s2 & H2 & E2) N1 N2.
  assert (s1 = s2) by (eapply steps_det; eauto). congruence.
Qed.
Print Assumptions C40_function_result_unique.

(** ** C40: loops, by the rules of [while_runs] and [do_runs]. *)
Theorem C40_while_partial :
  forall S foldk good is_call, sound_fold S foldk good ->
  forall e b n lp sw c, ok_stmt foldk good false false (SWhile e b) = true ->
  comp_stmt foldk is_call n lp sw (SWhile e b) = Some c ->
  forall C p st w sc r, code_at C p c -> (length sc <= n)%nat ->
  while_runs S (test S e) (exec_block S true b) (fun w1 => EOk tt w1) w r ->
  forall bt kt, does S C (St S p st w sc) sc (p + length c) bt kt r.
Proof.
  intros S foldk good is_call HS e b n lp sw c Ok E C p st w sc r HC Hl Hr bt kt.
  eapply C40_statement_partial; eauto.
  - cbn [comp_stmt] in E. sub E cc E1. sub E cb E2. inversion E; subst. unfold while_code in *. cbv zeta in *.
    rewrite link_again. exact HC.
  - apply (while_runs_loop S _ _ _ w r); [apply exec_mono | exact Hr].
Qed.
Print Assumptions C40_while_partial.

Theorem C40_do_while_partial :
  forall S foldk good is_call, sound_fold S foldk good ->
  forall b e n lp sw c, ok_stmt foldk good false false (SDo b e) = true ->
  comp_stmt foldk is_call n lp sw (SDo b e) = Some c ->
  forall C p st w sc r, code_at C p c -> (length sc <= n)%nat ->
  do_runs S (exec_block S true b) (test S e) w r ->
  forall bt kt, does S C (St S p st w sc) sc (p + length c) bt kt r.
Proof.
  intros S foldk good is_call HS b e n lp sw c Ok E C p st w sc r HC Hl Hr bt kt.
  eapply C40_statement_partial; eauto.
  - cbn [comp_stmt] in E. sub E cc E1. sub E cb E2. inversion E; subst. unfold do_code in *. cbv zeta in *.
    rewrite link_again. exact HC.
  - apply (do_runs_loop S _ _ w r); [apply exec_mono | exact Hr].
Qed.
Print Assumptions C40_do_while_partial.

Lemma for_unmarks : forall z wrap ci cic cb cp, nobc (for_code z wrap ci cic cb cp).
Proof.
  intros. unfold for_code. cbv zeta. destruct wrap.
  - apply nobc_app. split; [repeat constructor|]. apply nobc_app. split; [apply link_unmarks | repeat constructor].
  - apply link_unmarks.
Qed.
(** for(init; c; post): the initialisation once, then as while with the post
    action after every iteration, also after continue; variables declared in the
    initialisation end with the loop. *)
Theorem C40_for_partial :
  forall S foldk good is_call, sound_fold S foldk good ->
  forall z init e post b n lp sw c, ok_stmt foldk good false false (SFor z init (Some e) post b) = true ->
  comp_stmt foldk is_call n lp sw (SFor z init (Some e) post b) = Some c ->
  forall C p st w sc, code_at C p c -> (length sc <= n)%nat ->
  forall bt kt,
  match exec_init S init w with
  | EErr w1 => does S C (St S p st w sc) sc (p + length c) bt kt (OErr S w1)
  | EOk _ w1 =>
      forall r, while_runs S (test S e) (exec_block S true b) (exec_seq S post) w1 r ->
      match init, leaving S z (Some r) with
      | FiVars _, Some r' => does S C (St S p st w sc) sc (p + length c) bt kt r'
      | _, _ => does S C (St S p st w sc) sc (p + length c) bt kt r
      end
  end.
Proof.
  intros S foldk good is_call HS z init e post b n lp sw c Ok E C p st w sc HC Hl bt kt.
  assert (HC' : code_at C p (link (Z.of_nat bt) (Z.of_nat kt) (Z.of_nat p) c)).
  { rewrite link_nobc; [exact HC|]. cbn [comp_stmt] in E. sub E ci E1. sub E cb E2. sub E cp E3. cbv zeta in E.
    sub E c1 E4. inversion E; subst. apply for_unmarks. }
  assert (Hgo : forall r, terminates S (exec_stmt S (SFor z init (Some e) post b)) w r ->
                does S C (St S p st w sc) sc (p + length c) bt kt r).
  { intros r Hr. eapply C40_statement_partial; eauto. }
  clear HC HC'.
  destruct init as [|vs|es]; cbn [exec_init].
  - intros r Hr. apply Hgo.
    destruct (while_runs_loop S _ _ _ w r (proj1 (proj2 (proj2 (exec_mono S))) b true) Hr) as (f & Ef). exists f. exact Ef.
  - destruct (exec_vars S vs w) as [[] w1|w1] eqn:Ei.
    + intros r Hr. 
      destruct (while_runs_loop S _ _ _ w1 r (proj1 (proj2 (proj2 (exec_mono S))) b true) Hr) as (f & Ef).
      assert (Hx : exec_stmt S (SFor z (FiVars vs) (Some e) post b) f w = leaving S z (Some r)).
      { cbn [exec_stmt]. rewrite Ei. cbn [of_unit then_]. rewrite <- Ef. reflexivity. }
      destruct r; cbn [leaving] in *; apply Hgo; exists f; exact Hx.
    + apply Hgo. exists O. cbn [exec_stmt]. rewrite Ei. reflexivity.
  - destruct (exec_seq S es w) as [[] w1|w1] eqn:Ei.
    + intros r Hr. apply Hgo.
      destruct (while_runs_loop S _ _ _ w1 r (proj1 (proj2 (proj2 (exec_mono S))) b true) Hr) as (f & Ef).
      exists f. cbn [exec_stmt]. rewrite Ei. exact Ef.
    + apply Hgo. exists O. cbn [exec_stmt]. rewrite Ei. reflexivity.
Qed.
Print Assumptions C40_for_partial.

(** C41, first half: a loop never passes break or continue on to the loop around it. *)
Theorem C41_loops_absorb : forall S s w r,
  match s with SWhile _ _ | SDo _ _ | SFor _ _ _ _ _ | SForIn _ _ _ _ _ => True | _ => False end ->
  terminates S (exec_stmt S s) w r -> (forall w', r <> OBrk S w') /\ (forall w', r <> OCont S w').
Proof.
  intros S s w r Hs (f & E).
  assert (HL : forall cond x post f w r, loop S cond x post f w = Some r ->
     (forall w', r <> OBrk S w') /\ (forall w', r <> OCont S w')).
  { intros cond x post. induction f0 as [|f0 IH]; intros w0 r0 E0; [discriminate|]. cbn [loop] in E0.
    destruct (cond w0) as [[|] w1|w1]; try (inversion E0; subst; split; discriminate).
    destruct (x f0 w1) as [[w2|w2|w2|vs w2|w2]|]; try (inversion E0; subst; split; discriminate);
      destruct (post w2) as [[] w3|w3]; try (inversion E0; subst; split; discriminate); eauto. }
  assert (HD : forall cond x f w r, do_loop S x cond f w = Some r ->
     (forall w', r <> OBrk S w') /\ (forall w', r <> OCont S w')).
  { intros cond x. induction f0 as [|f0 IH]; intros w0 r0 E0; [discriminate|]. cbn [do_loop] in E0.
    destruct (x f0 w0) as [[w2|w2|w2|vs w2|w2]|]; try (inversion E0; subst; split; discriminate);
      destruct (cond w2) as [[|] w3|w3]; try (inversion E0; subst; split; discriminate); eauto. }
  destruct s as [|es|ls rs|x oe|es|b|c b r0|c b|b c|z init oe post b|z xs it a b|e cs| |]; try contradiction.
  - eapply HL; exact E.
  - eapply HD; exact E.
  - cbn [exec_stmt] in E. destruct init as [|vs|es].
    + eapply HL; exact E.
    + destruct (exec_vars S vs w) as [[] w1|w1]; cbn [of_unit then_] in E.
      * destruct (loop S _ _ _ f w1) as [r1|] eqn:E1; [|discriminate]. apply HL in E1. destruct E1 as (N1 & N2).
        destruct r1; cbn [leaving] in E; inversion E; subst; split; try discriminate; intros w' Hw; [eapply N1; eauto | eapply N2; eauto].
      * inversion E; subst; split; discriminate.
    + destruct (exec_seq S es w) as [[] w1|w1]; cbn [of_unit then_] in E.
      * eapply HL; exact E.
      * inversion E; subst; split; discriminate.
  - cbn [exec_stmt] in E. destruct (ebind (eval_operand S a w) _) as [u w1|w1]; cbn [of_unit then_] in E.
    + destruct (loop S _ _ _ f w1) as [r1|] eqn:E1; [|discriminate]. apply HL in E1. destruct E1 as (N1 & N2).
      destruct r1; cbn [leaving] in E; inversion E; subst; split; try discriminate; intros w' Hw; [eapply N1; eauto | eapply N2; eauto].
    + inversion E; subst; split; discriminate.
Qed.
Print Assumptions C41_loops_absorb.

(** C41, second half: when the body of a loop ends by break, in whatever nesting of
    blocks, conditionals and switches, the machine continues right behind the loop. *)
Theorem C41_break_partial :
  forall S foldk good is_call, sound_fold S foldk good ->
  forall e b n lp sw c, ok_stmt foldk good false false (SWhile e b) = true ->
  comp_stmt foldk is_call n lp sw (SWhile e b) = Some c ->
  forall C p st w sc w1 w2, code_at C p c -> (length sc <= n)%nat ->
  test S e w = EOk true w1 -> terminates S (exec_block S true b) w1 (OBrk S w2) ->
  exists st', steps S C (St S p st w sc) (St S (p + length c) st' w2 sc).
Proof.
  intros S foldk good is_call HS e b n lp sw c Ok E C p st w sc w1 w2 HC Hl Ht Hb.
  exact (C40_while_partial S foldk good is_call HS e b n lp sw c Ok E C p st w sc (ONorm S w2) HC Hl
           (wr_break S _ _ _ w w1 w2 Ht Hb) 0%nat 0%nat).
Qed.
Print Assumptions C41_break_partial.
(** A break in an inner loop ends the inner loop only: the outer one goes on with the
    statements after it. *)
Theorem C41_break_inner_partial :
  forall S foldk good is_call, sound_fold S foldk good ->
  forall e1 e2 z b rest n lp sw c,
  ok_stmt foldk good false false (SWhile e1 (Blk z (SCons (SWhile e2 b) rest))) = true ->
  comp_stmt foldk is_call n lp sw (SWhile e1 (Blk z (SCons (SWhile e2 b) rest))) = Some c ->
  forall C p st w sc w1 w2 w3 w5 r, code_at C p c -> (length sc <= n)%nat ->
  test S e1 w = EOk true w1 -> test S e2 w1 = EOk true w2 ->
  terminates S (exec_block S true b) w2 (OBrk S w3) ->
  terminates S (exec_stmts S rest) w3 (ORet S r w5) ->
  does S C (St S p st w sc) sc (p + length c) 0 0 (ORet S r (popsc S z w5)).
Proof.
  intros S foldk good is_call HS e1 e2 z b rest n lp sw c Ok E C p st w sc w1 w2 w3 w5 r HC Hl H1 H2 (f1 & H3) (f2 & H4).
  eapply C40_while_partial; eauto. eapply wr_return; [exact H1|].
  destruct (exec_mono S) as (_ & _ & Mb & Ms & _).
  assert (El : loop S (test S e2) (exec_block S true b) (fun w4 => EOk tt w4) (Datatypes.S (f1 + f2)) w1 = Some (ONorm S w3)).
  { cbn [loop]. rewrite H2, (Mb b true f1 (f1 + f2)%nat w2 (OBrk S w3)) by (auto; lia). reflexivity. }
  exists (Datatypes.S (f1 + f2)).
  transitivity (leaving S z (exec_stmts S (SCons (SWhile e2 b) rest) (Datatypes.S (f1 + f2)) w1)).
  { cbn [exec_block]. rewrite orb_true_r. reflexivity. }
  change (exec_stmts S (SCons (SWhile e2 b) rest) (Datatypes.S (f1 + f2)) w1) with
    (then_ S (loop S (test S e2) (exec_block S true b) (fun w4 => EOk tt w4) (Datatypes.S (f1 + f2)) w1)
       (exec_stmts S rest (Datatypes.S (f1 + f2)))).
  rewrite El. cbn [then_].
  rewrite (Ms rest f2 (Datatypes.S (f1 + f2)) w3 (ORet S r w5)) by (auto; lia). reflexivity.
Qed.
Print Assumptions C41_break_inner_partial.
(** continue: the post action, then the condition decides about the next iteration. *)
Theorem C41_continue_partial :
  forall S foldk good is_call, sound_fold S foldk good ->
  forall z e post b n lp sw c, ok_stmt foldk good false false (SFor z FiNone (Some e) post b) = true ->
  comp_stmt foldk is_call n lp sw (SFor z FiNone (Some e) post b) = Some c ->
  forall C p st w sc w1 w2 w3 w4, code_at C p c -> (length sc <= n)%nat ->
  test S e w = EOk true w1 -> terminates S (exec_block S true b) w1 (OCont S w2) ->
  exec_seq S post w2 = EOk tt w3 -> test S e w3 = EOk false w4 ->
  exists st', steps S C (St S p st w sc) (St S (p + length c) st' w4 sc).
Proof.
  intros S foldk good is_call HS z e post b n lp sw c Ok E C p st w sc w1 w2 w3 w4 HC Hl Ht Hb Hp Ht2.
  pose proof (C40_for_partial S foldk good is_call HS z FiNone e post b n lp sw c Ok E C p st w sc HC Hl 0%nat 0%nat) as H.
  cbn [exec_init] in H. apply (H (ONorm S w4)).
  eapply wr_next; [exact Ht | exact Hb | right; reflexivity | exact Hp | apply wr_stop; exact Ht2].
Qed.
Print Assumptions C41_continue_partial.

(** ** C39 *)
Fixpoint else_chain (l : list (expr * block)) (last : option block) : els :=
  match l with
  | [] => match last with None => ElNone | Some b => ElBlock b end
  | (c, b) :: l' => ElIf c b (else_chain l' last)
  end.
(** The block of the first true condition; later conditions are not evaluated. *)
Fixpoint pick (S : Sem) (l : list (expr * block)) (last : option block) (w : W S) : ev (W S) (option block) :=
  match l with
  | [] => EOk last w
  | (c, b) :: l' => ebind (test S c w) (fun t w1 => if t then EOk (Some b) w1 else pick S l' last w1)
  end.
Lemma else_chain_pick : forall S l last f w, exec_els S (else_chain l last) f w =
  match pick S l last w with
  | EErr w1 => Some (OErr S w1)
  | EOk None w1 => Some (ONorm S w1)
  | EOk (Some b) w1 => exec_block S false b f w1
  end.
Proof.
  induction l as [|(c, b) l IH]; intros last f w.
  - destruct last; reflexivity.
  - cbn [else_chain exec_els pick]. destruct (test S c w) as [[|] w1|w1]; cbn [ebind]; try reflexivity. apply IH.
Qed.
Theorem C39_first_true_branch_partial :
  forall S foldk good is_call, sound_fold S foldk good ->
  forall c0 b0 l last n lp sw c bok kok, ok_stmt foldk good bok kok (SIf c0 b0 (else_chain l last)) = true ->
  comp_stmt foldk is_call n lp sw (SIf c0 b0 (else_chain l last)) = Some c ->
  forall C p b k st w sc, code_at C p (link (Z.of_nat b) (Z.of_nat k) (Z.of_nat p) c) -> (length sc <= n)%nat ->
  match pick S ((c0, b0) :: l) last w with
  | EErr w1 => fails S C (St S p st w sc) w1
  | EOk None w1 => exists st', steps S C (St S p st w sc) (St S (p + length c) st' w1 sc)
  | EOk (Some bl) w1 => forall r, terminates S (exec_block S false bl) w1 r ->
                        does S C (St S p st w sc) sc (p + length c) b k r
  end.
Proof.
  intros S foldk good is_call HS c0 b0 l last n lp sw c bok kok Ok E C p b k st w sc HC Hl.
  assert (Hex : forall f, exec_stmt S (SIf c0 b0 (else_chain l last)) f w =
     exec_els S (else_chain ((c0, b0) :: l) last) f w) by reflexivity.
  assert (Hgo : forall f r, exec_els S (else_chain ((c0, b0) :: l) last) f w = Some r ->
     does S C (St S p st w sc) sc (p + length c) b k r).
  { intros f r Hr. eapply C40_statement_partial; eauto. exists f. rewrite Hex. exact Hr. }
  assert (Hp : forall f, exec_els S (else_chain ((c0, b0) :: l) last) f w =
    match pick S ((c0, b0) :: l) last w with
    | EErr w1 => Some (OErr S w1)
    | EOk None w1 => Some (ONorm S w1)
    | EOk (Some b) w1 => exec_block S false b f w1
    end) by (intros; apply else_chain_pick).
  destruct (pick S ((c0, b0) :: l) last w) as [[bl|] w1|w1].
  - intros r (f & Hr). apply (Hgo f r). rewrite Hp. exact Hr.
  - exact (Hgo O (ONorm S w1) (Hp O)).
  - exact (Hgo O (OErr S w1) (Hp O)).
Qed.
Print Assumptions C39_first_true_branch_partial.

(** ** C42 *)
Theorem C42_switch_partial :
  forall S foldk good is_call, sound_fold S foldk good ->
  forall e cs n lp sw c bok kok, ok_stmt foldk good bok kok (SSwitch e cs) = true ->
  comp_stmt foldk is_call n lp sw (SSwitch e cs) = Some c ->
  forall C p b k st w sc, code_at C p (link (Z.of_nat b) (Z.of_nat k) (Z.of_nat p) c) -> (length sc <= n)%nat ->
  match ebind (eval_expr S e w) (fun v w1 => select S 0 cs v w1) with
  | EErr w1 => fails S C (St S p st w sc) w1
  | EOk o w1 =>
      match (match o with Some j => Some j | None => default_at 0 cs end) with
      | None => exists st', steps S C (St S p st w sc) (St S (p + length c) st' w1 sc)
      | Some j => forall r, terminates S (exec_clauses S cs j) w1 r ->
                  does S C (St S p st w sc) sc (p + length c) b k r
      end
  end.
Proof.
  intros S foldk good is_call HS e cs n lp sw c bok kok Ok E C p b k st w sc HC Hl.
  assert (Hgo : forall f r, exec_stmt S (SSwitch e cs) f w = Some r ->
     does S C (St S p st w sc) sc (p + length c) b k r).
  { intros f r Hr. eapply C40_statement_partial; eauto. exists f. exact Hr. }
  cbn [exec_stmt] in Hgo. destruct (eval_expr S e w) as [v w1|w1]; cbn [ebind].
  - destruct (select S 0 cs v w1) as [o w2|w2].
    + destruct (match o with Some j => Some j | None => default_at 0 cs end) as [j|].
      * intros r (f & Hr). exact (Hgo f r Hr).
      * exact (Hgo O (ONorm S w2) eq_refl).
    + exact (Hgo O (OErr S w2) eq_refl).
  - exact (Hgo O (OErr S w1) eq_refl).
Qed.
Print Assumptions C42_switch_partial.
(** The clause selected is the first one with a label equal to the value, and the clauses
    run from there on until one ends in break. *)
Theorem C42_fall_through : forall S ls ss brk cs f w w1,
  exec_stmts S ss f w = Some (ONorm S w1) ->
  exec_clauses S (CCons ls ss brk cs) 0 f w = if brk then Some (ONorm S w1) else exec_clauses S cs 0 f w1.
Proof.
  intros S ls ss brk cs f w w1 E.
  change (exec_clauses S (CCons ls ss brk cs) 0 f w) with
    (match exec_stmts S ss f w with
          | Some (ONorm _ w1) => if brk then Some (ONorm S w1) else exec_clauses S cs O f w1
          | Some (OBrk _ w1) => Some (ONorm S w1)
          | r => r
          end). rewrite E. reflexivity.
Qed.
Print Assumptions C42_fall_through.
(** Without case labels the code does not depend on the switch expression: it is never
    evaluated. *)
Theorem C42_expression_not_evaluated_refuted :
  forall foldk is_call n lp sw e e' cs c ce', has_case cs = false ->
  comp_stmt foldk is_call n lp sw (SSwitch e cs) = Some c -> comp_expr foldk [] e' = Some ce' ->
  comp_stmt foldk is_call n lp sw (SSwitch e' cs) = Some c.
Proof.
  intros foldk is_call n lp sw e e' cs c ce' Hn E E'.
  assert (Hl : forall cs, has_case cs = false -> forall n lp off body l d,
     comp_clauses foldk is_call n lp off cs = Some (body, l, d) -> l = []).
  { assert (HL : forall ls off l d, existsb (fun x => negb (is_default x)) ls = false ->
       comp_labels foldk is_call off ls = Some (l, d) -> l = []).
    { induction ls as [|[a|] ls IH]; intros off l d Hx Ex; cbn [comp_labels existsb is_default negb orb] in *.
      - inversion Ex; reflexivity.
      - discriminate.
      - destruct (comp_labels foldk is_call off ls) as [(l1, [d1|])|] eqn:El; try discriminate.
        inversion Ex; subst. eapply IH; eauto. }
    induction cs0 as [|ls ss brk cs0 IH]; intros Hx n0 lp0 off body l d Ex.
    - inversion Ex; reflexivity.
    - destruct (clauses_inv _ _ _ _ _ _ _ _ _ _ _ _ Ex) as (c1 & l1 & d1 & body' & l' & d' & E1 & E2 & E3 & -> & -> & _).
      cbn [has_case] in Hx. apply orb_false_iff in Hx. destruct Hx as (Hx1 & Hx2).
      rewrite (HL _ _ _ _ Hx1 E2), (IH Hx2 _ _ _ _ _ _ E3). reflexivity. }
  cbn [comp_stmt] in *. sub E ce Ece. rewrite E'.
  match type of E with match ?x with _ => _ end = _ => destruct x as [((body, l), d)|] eqn:E2; [|discriminate] end.
  specialize (Hl cs Hn _ _ _ _ _ _ E2). subst l. destruct body; exact E.
Qed.
Print Assumptions C42_expression_not_evaluated_refuted.

(** ** C43 *)
Theorem C43_scopes_balanced_partial :
  forall S foldk good is_call, sound_fold S foldk good ->
  forall s n lp sw c bok kok, ok_stmt foldk good bok kok s = true ->
  comp_stmt foldk is_call n lp sw s = Some c ->
  forall C p b k st w sc r, code_at C p (link (Z.of_nat b) (Z.of_nat k) (Z.of_nat p) c) -> (length sc <= n)%nat ->
  terminates S (exec_stmt S s) w r ->
  match r with
  | ONorm _ _ | OBrk _ _ | OCont _ _ => exists s', steps S C (St S p st w sc) s' /\ scs S s' = sc /\
      (pc S s' = (p + length c)%nat \/ pc S s' = b \/ pc S s' = k)
  | ORet _ vs w' => exists s' g, steps S C (St S p st w sc) s' /\ step S C s' = Done S (leave_all S sc w') g
  | OErr _ _ => True
  end.
Proof.
  intros S foldk good is_call HS s n lp sw c bok kok Ok E C p b k st w sc r HC Hl Hr.
  pose proof (C40_statement_partial S foldk good is_call HS s n lp sw c bok kok Ok E C p b k st w sc r HC Hl Hr) as H.
  destruct r; cbn [does] in H; try exact I.
  - destruct H as (s' & H). eexists; split; [exact H|]. cbn [scs pc]. auto.
  - destruct H as (s' & H). eexists; split; [exact H|]. cbn [scs pc]. auto.
  - destruct H as (s' & H). eexists; split; [exact H|]. cbn [scs pc]. auto.
  - destruct H as (s' & g & H & H2). exists s', (rev vs ++ g). auto.
Qed.
Print Assumptions C43_scopes_balanced_partial.

(** ** Programs that are compiled wrongly. *)

(** A machine that comes back to its first instruction from every world never ends. *)
Inductive nsteps (S : Sem) (C : code) : nat -> st S -> st S -> Prop :=
| ns_refl : forall s, nsteps S C 0 s s
| ns_cons : forall n s1 s2 s3, step S C s1 = Next S s2 -> nsteps S C n s2 s3 -> nsteps S C (Datatypes.S n) s1 s3.
Lemma steps_n : forall S C s1 s2, steps S C s1 s2 -> exists n, nsteps S C n s1 s2.
Proof. intros S C s1 s2 H. induction H as [s|s1 s2 s3 H1 _ (n & IH)]; [exists O | exists (Datatypes.S n)]; econstructor; eauto. Qed.
Lemma nsteps_past : forall S C a b, steps S C a b -> forall n c, nsteps S C n a c ->
  (forall s, step S C c <> Next S s) -> exists m, (m <= n)%nat /\ nsteps S C m b c.
Proof.
  intros S C a b H. induction H as [s|s1 s2 s3 H1 _ IH]; intros n c Hc N; [exists n; split; auto|].
  destruct Hc as [s1 | n s1 s4 c H4 H5]; [exfalso; eapply N; eauto|].
  assert (s4 = s2) by congruence. subst s4. destruct (IH n c H5 N) as (m & Hm & Hs). exists m. split; [lia | exact Hs].
Qed.
Lemma returns_forever : forall S C,
  (forall w, exists w' s1, step S C (St S 0 [] w []) = Next S s1 /\ steps S C s1 (St S 0 [] w' [])) ->
  forall w r, ends S C w r -> exists s, r = Next S s.
Proof.
  intros S C H w r (s2 & Hs & Er). apply steps_n in Hs. destruct Hs as (n & Hs).
  destruct r as [s|s|s|]; [eauto| | |]; exfalso;
    (assert (N : forall s, step S C s2 <> Next S s) by (intros; rewrite Er; discriminate));
    clear Er; revert w Hs; induction n as [n IH] using (well_founded_induction Wf_nat.lt_wf); intros w Hs;
    destruct (H w) as (w' & s1 & H1 & H2);
    (destruct n as [|n]; [inversion Hs; subst; eapply N; eauto|]);
    inversion Hs as [|? ? s3 ? H3 H4]; subst; (assert (s3 = s1) by congruence); subst s3;
    destruct (nsteps_past S C _ _ H2 n s2 H4 N) as (m & Hm & Hm2); (apply (IH m) with (w := w'); [lia | exact Hm2]).
Qed.

Lemma exec_steps : forall S n C s s', exec S n C s = Next S s' -> steps S C s s'.
Proof.
  intros S. induction n as [|n IH]; intros C s s' E; cbn [exec] in E.
  - inversion E. apply steps_refl.
  - destruct (Nat.eqb (pc S s) (length C)); [inversion E; apply steps_refl|].
    destruct (step S C s) as [s1| | |] eqn:E1; try discriminate. eapply steps_cons; [exact E1 | apply IH; exact E].
Qed.
Definition set_ (x : nat) (a : operand) : expr := Expr (TgCons (TVar (Local x)) A_SET TgNil) a ONil TNone.
Definition x_ := AVar (Local 0).
Definition one (s : stmt) : stmts := SCons s SNil.
Definition st_ (e : expr) : stmt := SExprs (ECons e ENil).
Definition inc_ (x : nat) : expr := e1_ (AIncDec true true (TVar (Local x))).
Definition ret_ (a : operand) : stmt := SReturn (ECons (e1_ a) ENil).
Definition eq_ (a b : operand) : expr := Expr TgNil a (OCons O_EQ b ONil) TNone.
Definition lt_ (a b : operand) : expr := Expr TgNil a (OCons O_LT b ONil) TNone.
Definition int_ (z : Z) := AConst (KInt z).

(** for(x=0;;){ if(x==1){ return x; } x++; } should return 1; compiled, it executes [x=0]
    before every iteration and never ends. *)
Definition C40_prog : stmts :=
  one (SFor 0 (FiExprs (ECons (set_ 0 (int_ 0)) ENil)) None ENil
    (Blk 1 (SCons (SIf (eq_ x_ (int_ 1)) (Blk 2 (one (ret_ x_))) ElNone) (one (st_ (inc_ 0)))))).
Definition C40_code : code :=
  [LoadK (KInt 0); PushVar (Local 0); Asg A_SET true; PushScope 1; Bin O_EQ 0 (Cst (KInt 1)) 320;
   Jnt NoMark 3; LoadVar (Local 0); Ret; PushVar (Local 0); IncDec true true true; PopScope;
   Jmp NoMark (-11); PopScope; EndFun].
Theorem C40_for_without_condition_refuted :
  comp_fun foldx (fun _ => false) 1 C40_prog = Some C40_code /\
  forall w, (exists w', terminates Zx (exec_stmts Zx C40_prog) w (ORet Zx [inl (ZI 1)] w')) /\
            (forall r, ends Zx C40_code w r -> exists s, r = Next Zx s).
Proof.
  split; [reflexivity|]. intros w. split.
  - eexists. exists 3%nat. reflexivity.
  - apply returns_forever. clear w. intros w.
    exists (zset (zset w (Local 0) (ZI 0)) (Local 0) (ZI 1)), (St Zx 1 [inl (ZI 0)] w []). split; [reflexivity|].
    set (w0 := zset w (Local 0) (ZI 0)). set (w1 := zset w0 (Local 0) (ZI 1)).
    apply steps_cons with (s2 := St Zx 2 [inr (Local 0); inl (ZI 0)] w []); [reflexivity|].
    apply steps_cons with (s2 := St Zx 3 [] w0 []); [reflexivity|].
    apply steps_cons with (s2 := St Zx 4 [] w0 [1]); [reflexivity|].
    apply steps_cons with (s2 := St Zx 5 [inl (ZB false)] w0 [1]); [reflexivity|].
    apply steps_cons with (s2 := St Zx 8 [] w0 [1]); [reflexivity|].
    apply steps_cons with (s2 := St Zx 9 [inr (Local 0)] w0 [1]); [reflexivity|].
    apply steps_cons with (s2 := St Zx 10 [] w1 [1]); [reflexivity|].
    apply steps_cons with (s2 := St Zx 11 [] w1 []); [reflexivity|].
    apply steps_cons with (s2 := St Zx 0 [] w1 []); [reflexivity|]. apply steps_refl.
Qed.
Print Assumptions C40_for_without_condition_refuted.

(** while(true){ {var y=k; continue;} }: every iteration leaves a scope open, the eleventh
    is written behind the ten scope blocks of the activation. *)
Definition C43_prog (k : const) : stmts :=
  one (SWhile (e1_ (AConst (KBool true))) (Blk 1 (one (SBlock (Blk 2
     (SCons (SVar (Local 0) (Some (e1_ (AConst k)))) (one SContinue))))))).
Theorem C43_continue_leaves_scope_open_refuted : forall foldk is_call k,
  exists C, comp_fun foldk is_call 1 (C43_prog k) = Some C /\
  forall S, vbool S (kval S (KBool true)) = Some true ->
  (forall l v w, exists v' w', assign S A_SET l v w = EOk v' w') ->
  (forall w sc, (length sc <= 8)%nat -> exists w', steps S C (St S 0 [] w sc) (St S 0 [] w' (1 :: sc))) /\
  (forall w, ends S C w (Stuck S)).
Proof.
  intros foldk is_call k.
  exists [LoadK (KBool true); Jnt NoMark 11; PushScope 1; PushScope 2; LoadK k; PushVar (Local 0);
          Asg A_SET true; Jmp NoMark 2; PopScope; PopScope; Jmp NoMark (-10); PopScope; EndFun].
  split; [reflexivity|]. intros S Hb Ha.
  set (C := [LoadK (KBool true); _; _; _; _; _; _; _; _; _; _; _; _]).
  assert (Hit : forall w sc, (length sc <= 8)%nat -> exists w', steps S C (St S 0 [] w sc) (St S 0 [] w' (1 :: sc))).
  { intros w sc Hl. destruct (Ha (lvar S (Local 0)) (kval S k) w) as (v' & w' & Hw).
    assert (H1 : (length sc <? max_scopes)%nat = true) by (apply Nat.ltb_lt; unfold max_scopes; lia).
    assert (H2 : (length (1%Z :: sc) <? max_scopes)%nat = true) by (apply Nat.ltb_lt; unfold max_scopes; cbn [length]; lia).
    exists (popsc S 2 w').
    eapply steps_cons; [reflexivity|].
    eapply steps_cons; [unfold step; cbn [pc sk wd scs nth_error C]; rewrite Hb; reflexivity|].
    eapply steps_cons; [unfold step; cbn [pc sk wd scs nth_error C]; rewrite H1; reflexivity|].
    eapply steps_cons; [unfold step; cbn [pc sk wd scs nth_error C]; rewrite H2; reflexivity|].
    eapply steps_cons; [reflexivity|].
    eapply steps_cons; [reflexivity|].
    eapply steps_cons; [unfold step; cbn [pc sk wd scs nth_error C]; rewrite Hw; reflexivity|].
    do 3 (eapply steps_cons; [reflexivity|]). apply steps_refl. }
  split; [exact Hit|]. intros w.
  assert (Hn : forall n, (n <= 9)%nat -> exists w', steps S C (St S 0 [] w []) (St S 0 [] w' (repeat 1 n))).
  { induction n as [|n IH]; intros Hn; [exists w; apply steps_refl|].
    destruct IH as (w1 & H1); [lia|]. destruct (Hit w1 (repeat 1 n)) as (w2 & H2); [rewrite repeat_length; lia|].
    exists w2. eapply steps_trans; [exact H1 | exact H2]. }
  destruct (Hn 9%nat (le_n _)) as (w1 & H1).
  exists (St S 3 [] w1 (1 :: repeat 1 9)). split; [|reflexivity].
  eapply steps_trans; [exact H1|].
  eapply steps_cons; [reflexivity|].
  eapply steps_cons; [unfold step; cbn [pc sk wd scs nth_error C]; rewrite Hb; reflexivity|].
  eapply steps_cons; [reflexivity|]. apply steps_refl.
Qed.
Print Assumptions C43_continue_leaves_scope_open_refuted.

(** while(true){ switch(x){ default: if(true){break;} y++; break; } return 1; } return 2;
    should return 1: the break belongs to the switch.  Without case label it ends the loop. *)
Definition C42_break_prog : stmts :=
  SCons (SWhile (e1_ (AConst (KBool true))) (Blk 1 (SCons
    (SSwitch (e1_ x_) (CCons [LDefault]
       (SCons (SIf (e1_ (AConst (KBool true))) (Blk 2 (one SBreak)) ElNone) (one (st_ (inc_ 1)))) true CNil))
    (one (ret_ (int_ 1)))))) (one (ret_ (int_ 2))).
Theorem C42_break_of_caseless_switch_refuted : forall foldk is_call,
  exists C, comp_fun foldk is_call 1 C42_break_prog = Some C /\
  forall S, vbool S (kval S (KBool true)) = Some true ->
  forall w, ends S C w (Done S (popsc S 1 w) [inl (kval S (KInt 2))]) /\
  terminates S (exec_stmts S C42_break_prog) w (ORet S [inl (kval S (KInt 1))] (popsc S 1 w)).
Proof.
  intros foldk is_call.
  exists [LoadK (KBool true); Jnt NoMark 12; PushScope 1; LoadK (KBool true); Jnt NoMark 2; Jmp NoMark 7;
          PushVar (Local 1); IncDec true true true; LoadK (KInt 1); Ret; PopScope; Jmp NoMark (-11); PopScope;
          LoadK (KInt 2); Ret; EndFun].
  split; [reflexivity|]. intros S Hb w. split.
  - eexists. split.
    + eapply steps_cons; [reflexivity|].
      eapply steps_cons; [unfold step; cbn [pc sk wd scs nth_error]; rewrite Hb; reflexivity|].
      eapply steps_cons; [reflexivity|]. eapply steps_cons; [reflexivity|].
      eapply steps_cons; [unfold step; cbn [pc sk wd scs nth_error]; rewrite Hb; reflexivity|].
      do 3 (eapply steps_cons; [reflexivity|]). apply steps_refl.
    + reflexivity.
  - exists 2%nat. cbn. unfold test, truth. cbn. unfold truth. rewrite Hb. reflexivity.
Qed.
Print Assumptions C42_break_of_caseless_switch_refuted.

(** switch(x){ case 1: y++; break; } return 2; -- when x is not 1 the value of x stays on
    the stack and is returned below the 2. *)
Definition C42_left_prog : stmts :=
  SCons (SSwitch (e1_ x_) (CCons [LCase (int_ 1)] (one (st_ (inc_ 1))) true CNil)) (one (ret_ (int_ 2))).
Theorem C42_unmatched_value_stays_refuted : forall foldk is_call,
  exists C, comp_fun foldk is_call 1 C42_left_prog = Some C /\
  forall S w, caseeq S (vget S w (Local 0)) (kval S (KInt 1)) w = EOk false w ->
  ends S C w (Done S w [inl (kval S (KInt 2)); inl (vget S w (Local 0))]) /\
  terminates S (exec_stmts S C42_left_prog) w (ORet S [inl (kval S (KInt 2))] w).
Proof.
  intros foldk is_call.
  exists [LoadVar (Local 0); LoadK (KInt 1); JeCase 2; Jmp NoMark 3; PushVar (Local 1); IncDec true true true;
          LoadK (KInt 2); Ret; EndFun].
  split; [reflexivity|]. intros S w Hc. split.
  - eexists. split.
    + do 2 (eapply steps_cons; [reflexivity|]).
      eapply steps_cons; [unfold step; cbn [pc sk wd scs nth_error]; rewrite Hc; reflexivity|].
      do 2 (eapply steps_cons; [reflexivity|]). apply steps_refl.
    + reflexivity.
  - exists O. cbn. rewrite Hc. reflexivity.
Qed.
Print Assumptions C42_unmatched_value_stays_refuted.

(** ** C37: chains and multiple assignment. *)
Theorem C37_multiple_assignment_partial :
  forall S foldk good is_call, sound_fold S foldk good ->
  forall ls rs n lp sw c bok kok, ok_stmt foldk good bok kok (SMulti ls rs) = true ->
  comp_stmt foldk is_call n lp sw (SMulti ls rs) = Some c ->
  forall C p st w sc, code_at C p c ->
  match exec_multi S ls rs w with
  | EOk _ w' => steps S C (St S p st w sc) (St S (p + length c) [] w' sc)
  | EErr w' => fails S C (St S p st w sc) w'
  end.
Proof.
  intros S foldk good is_call (H1 & H2) ls rs n lp sw c bok kok Ok E C p st w sc HC.
  pose proof (multi_ok S is_call foldk good H1 H2 ls rs c Ok E C p st w sc HC) as H.
  destruct (exec_multi S ls rs w) as [[] w'|w']; [|exact H].
  destruct H as (s' & Hs & He). unfold emptied in He. subst s'. exact Hs.
Qed.
Print Assumptions C37_multiple_assignment_partial.

Fixpoint var_args (ys : list var) : exprs :=
  match ys with [] => ENil | y :: ys' => ECons (e1_ (AVar y)) (var_args ys') end.
Fixpoint zset_all (w : zworld) (ps : list (var * zval)) : zworld :=
  match ps with [] => w | (x, v) :: ps' => zset_all (zset w x v) ps' end.
Lemma var_eqb_eq : forall x y, var_eqb x y = true <-> x = y.
Proof.
  intros [i|i|i] [j|j|j]; cbn [var_eqb]; split; intros H; try discriminate; try (apply Nat.eqb_eq in H; congruence);
    inversion H; apply Nat.eqb_refl.
Qed.
Lemma zset_all_other : forall ps w y, ~ In y (map fst ps) -> vars (zset_all w ps) y = vars w y.
Proof.
  induction ps as [|(x, v) ps IH]; intros w y H; [reflexivity|]. cbn [zset_all]. rewrite IH; [|intros Hi; apply H; right; exact Hi].
  cbn [zset vars]. destruct (var_eqb y x) eqn:E; [|reflexivity]. apply var_eqb_eq in E. subst y. exfalso. apply H. left. reflexivity.
Qed.
Lemma zset_all_in : forall ps w x v, NoDup (map fst ps) -> In (x, v) ps -> vars (zset_all w ps) x = v.
Proof.
  induction ps as [|(y, u) ps IH]; intros w x v Hn Hi; [contradiction|]. cbn [map fst] in Hn. inversion Hn; subst.
  cbn [zset_all]. destruct Hi as [Hi | Hi]; [|apply IH; assumption].
  inversion Hi; subst. rewrite zset_all_other by assumption. cbn [zset vars].
  replace (var_eqb x x) with true; [reflexivity|]. symmetry. apply var_eqb_eq. reflexivity.
Qed.

Section Permute.
Variables (itext : Z -> list Z) (ftext : f64 -> list Z) (otext : stk -> list Z)
          (has_char : list Z -> Z -> bool) (has_str : list Z -> list Z -> bool).
Notation Zs := (ZSem itext ftext otext has_char has_str).
Notation fk := (foldk itext ftext has_char has_str).
Notation gd := (good itext ftext).

Lemma var_args_values : forall ys (w : zworld),
  eval_list Zs (dens Zs (var_args ys)) w = EOk (map (vars w) ys) w /\
  eval_list Zs (rev (dens Zs (var_args ys))) w = EOk (rev (map (vars w) ys)) w.
Proof.
  assert (Hl : forall (ds : list (W Zs -> ev (W Zs) zval)) vs w, Forall2 (fun d v => d w = EOk v w) ds vs -> eval_list Zs ds w = EOk vs w).
  { intros ds vs w H. induction H as [|d v ds vs H1 _ IH]; [reflexivity|]. cbn [eval_list]. rewrite H1. cbn [ebind].
    rewrite IH. reflexivity. }
  assert (Hf : forall ys (w : zworld), Forall2 (fun (d : W Zs -> ev (W Zs) zval) v => d w = EOk v w) (dens Zs (var_args ys)) (map (vars w) ys)).
  { induction ys as [|y ys IH]; intros w; [constructor|]. cbn [var_args dens map]. constructor; [reflexivity | apply IH]. }
  intros ys w. split; apply Hl; [apply Hf|].
  specialize (Hf ys w). clear Hl. induction Hf as [|d v ds vs H1 _ IH]; [constructor|]. cbn [rev].
  apply Forall2_app; [exact IH | constructor; [exact H1 | constructor]].
Qed.
Lemma var_targets : forall xs (w : zworld), eval_list Zs (map (eval_target Zs) (map TVar xs)) w = EOk xs w.
Proof. induction xs as [|x xs IH]; intros w; [reflexivity|]. cbn [map eval_list]. change (eval_target Zs (TVar x) w) with (@EOk zworld var x w). cbn [ebind]. rewrite IH. reflexivity. Qed.
Lemma assign_all_set : forall ps (w : zworld), Forall (fun p => zkept (snd p) = snd p) ps -> assign_all Zs ps w = EOk tt (zset_all w ps).
Proof.
  induction ps as [|(x, v) ps IH]; intros w H; [reflexivity|]. inversion H as [|p q Hv Hr]; subst. cbn [snd] in Hv.
  cbn [assign_all zset_all]. change (assign_all Zs ps (zset w x (zkept v)) = EOk tt (zset_all (zset w x v) ps)).
  rewrite Hv. apply IH. exact Hr.
Qed.
Lemma combine_more : forall A B (a : list A) (b c : list B), length a = length b -> combine a (b ++ c) = combine a b.
Proof. induction a as [|x a IH]; intros [|y b] c H; try discriminate; [reflexivity|]. cbn [combine app]. rewrite IH; auto. Qed.

(** x1,..,xn = y1,..,yn for any n the compiler accepts and values that are not strings: every
    xi gets the old value of yi, whatever variables occur on both sides; i,j=j,i swaps.
    (For strings see [PassProps.C37_string_swap_refuted].) *)
Theorem C37_variables_permuted_partial : forall is_call xs ys n lp sw c,
  NoDup xs -> length xs = length ys -> (2 <= length xs < 16)%nat ->
  comp_stmt fk is_call n lp sw (SMulti (map TVar xs) (var_args ys)) = Some c ->
  forall C p st w sc, code_at C p c -> (forall y t, In y ys -> vars w y <> ZS t) ->
  exists w', steps Zs C (St Zs p st w sc) (St Zs (p + length c) [] w' sc) /\
    (forall i x y, nth_error xs i = Some x -> nth_error ys i = Some y -> vars w' x = vars w y) /\
    (forall z, ~ In z xs -> vars w' z = vars w z).
Proof.
  intros is_call xs ys n lp sw c Hn Hl Hb E C p st w sc HC Hns.
  assert (Ok : ok_stmt fk gd false false (SMulti (map TVar xs) (var_args ys)) = true).
  { change (forallb (ok_target fk gd) (map TVar xs) && ok_args fk gd (var_args ys) = true). apply andb_true_iff. split.
    - clear. induction xs; [reflexivity|]. exact IHxs.
    - clear. induction ys as [|y ys IH]; [reflexivity|].
      change (ok_expr fk gd (e1_ (AVar y)) && ok_args fk gd (var_args ys) = true). rewrite IH. reflexivity. }
  pose proof (C37_multiple_assignment_partial Zs fk gd is_call (C35_language_folds_soundly _ _ _ _ _) _ _ n lp sw c false false Ok E C p st w sc HC) as H.
  assert (Em : exec_multi Zs (map TVar xs) (var_args ys) w =
     EOk tt (zset_all w (rev (combine xs (map (vars w) ys))))).
  { unfold exec_multi. rewrite (proj2 (var_args_values ys w)). cbn [ebind]. rewrite var_targets. cbn [ebind].
    rewrite rev_involutive, combine_more by (rewrite map_length; exact Hl). apply assign_all_set.
    apply Forall_forall. intros (x, v) Hi. apply in_rev, in_combine_r, in_map_iff in Hi. destruct Hi as (y & <- & Hy).
    cbn [snd]. destruct (vars w y) eqn:Ey; try reflexivity. exfalso. exact (Hns y s Hy Ey). }
  rewrite Em in H. eexists. split; [exact H|].
  assert (Hfst : forall (a : list var) (b : list zval), length a = length b -> map fst (combine a b) = a).
  { induction a as [|x a IH]; intros [|y b] Hab; try discriminate; [reflexivity|]. cbn. rewrite IH; auto. }
  assert (Hkeys : map fst (rev (combine xs (map (vars w) ys))) = rev xs).
  { rewrite map_rev, Hfst; [reflexivity|]. rewrite map_length. exact Hl. }
  split.
  - intros i x y Hx Hy. apply zset_all_in.
    + rewrite Hkeys. apply NoDup_rev. exact Hn.
    + apply in_rev. rewrite rev_involutive. clear - Hx Hy. revert i ys Hx Hy.
      induction xs as [|x0 xs IH]; intros [|i] [|y0 ys] Hx Hy; cbn in *; try discriminate.
      * inversion Hx; inversion Hy; subst. left. reflexivity.
      * right. eapply IH; eauto.
  - intros z Hz. apply zset_all_other. rewrite Hkeys. intros Hi. apply Hz. apply in_rev. exact Hi.
Qed.

(** x1 = .. = xn = e: all get the value of e, when e is not a string with a backslash. *)
Fixpoint chain (a : asop) (xs : list var) : targets :=
  match xs with [] => TgNil | x :: xs' => TgCons (TVar x) a (chain a xs') end.
Theorem C37_chain_partial : forall xs hd tl tn c,
  ok_expr fk gd (Expr (chain A_SET xs) hd tl tn) = true -> comp_expr fk [] (Expr (chain A_SET xs) hd tl tn) = Some c ->
  forall C p st w sc, code_at C p c ->
  match eval_expr Zs (Expr TgNil hd tl tn) w with
  | EErr w' => fails Zs C (St Zs p st w sc) w'
  | EOk v w1 => (forall t, v = ZS t -> ~ In 92%Z t) ->
      exists w', steps Zs C (St Zs p st w sc) (St Zs (p + length c) (inl v :: st) w' sc) /\
      (forall x, In x xs -> vars w' x = v) /\ (forall z, ~ In z xs -> vars w' z = vars w1 z)
  end.
Proof.
  intros xs hd tl tn c Ok E C p st w sc HC.
  destruct (C35_language_folds_soundly itext ftext otext has_char has_str) as (H1 & H2).
  pose proof (expr_correct Zs fk gd H1 H2 _ _ Ok E C p st w sc HC) as H.
  assert (Et : forall xs v (w1 : zworld), zkept v = v -> eval_targets Zs (chain A_SET xs) v w1 = EOk v (zset_all w1 (map (fun x => (x, v)) xs))).
  { induction xs0 as [|x xs0 IH]; intros v w1 Hv; [reflexivity|]. 
    change (eval_targets Zs (chain A_SET (x :: xs0)) v w1) with (eval_targets Zs (chain A_SET xs0) v (zset w1 x (zkept v))).
    rewrite Hv, IH by exact Hv. reflexivity. }
  change (eval_expr Zs (Expr (chain A_SET xs) hd tl tn) w) with
    (ebind (eval_tree Zs (tree_of (eval_operand Zs hd, type_leaf hd) (ops_den Zs tl)) w) (fun v w1 =>
     ebind (eval_tern Zs tn v w1) (fun v2 w2 => eval_targets Zs (chain A_SET xs) v2 w2))) in H.
  change (eval_expr Zs (Expr TgNil hd tl tn) w) with
    (ebind (eval_tree Zs (tree_of (eval_operand Zs hd, type_leaf hd) (ops_den Zs tl)) w) (fun v w1 =>
     ebind (eval_tern Zs tn v w1) (fun v2 w2 => EOk v2 w2))).
  destruct (eval_tree Zs _ w) as [v w1|w1]; cbn [ebind] in *; [|exact H].
  destruct (eval_tern Zs tn v w1) as [v2 w2|w2]; cbn [ebind] in *; [|exact H].
  intros Hp. rewrite Et in H by (destruct v2; try reflexivity; cbn [zkept]; rewrite ValueProofs.set_text_no_backslash by (apply Hp; reflexivity); reflexivity).
  eexists. split; [exact H|].
  assert (Hs : forall x l w0, In x l -> vars (zset_all w0 (map (fun x => (x, v2)) l)) x = v2).
  { intros x l. induction l as [|y l IH]; intros w0 Hi; [contradiction|]. cbn [map zset_all].
    destruct (in_dec (fun a b => match bool_dec (var_eqb a b) true with
       | left e => left (proj1 (var_eqb_eq a b) e) | right n => right (fun e => n (proj2 (var_eqb_eq a b) e)) end) x l) as [Hx|Hx].
    - apply IH. exact Hx.
    - destruct Hi as [-> | Hi]; [|contradiction]. rewrite zset_all_other.
      + cbn [zset vars]. rewrite (proj2 (var_eqb_eq x x) eq_refl). reflexivity.
      + rewrite map_map. cbn [fst]. rewrite map_id. exact Hx. }
  split.
  - intros x Hx. apply Hs. exact Hx.
  - intros z Hz. apply zset_all_other. rewrite map_map. cbn [fst]. rewrite map_id. exact Hz.
Qed.
End Permute.
Print Assumptions C37_variables_permuted_partial.
Print Assumptions C37_chain_partial.

(** a += b += e is executed from the left: a gets a+e, then b gets b+a+e. *)
Definition C37_compound : expr :=
  Expr (TgCons (TVar (Local 0)) A_ADD (TgCons (TVar (Local 1)) A_ADD TgNil)) (AVar (Local 2)) ONil TNone.
Theorem C37_compound_chain_refuted : forall foldk, exists c, comp_expr foldk [] C37_compound = Some c /\
  forall S s w sc v1 w1 v2 w2,
  assign S A_ADD (lvar S (Local 0)) (vget S w (Local 2)) w = EOk v1 w1 ->
  assign S A_ADD (lvar S (Local 1)) v1 w1 = EOk v2 w2 ->
  steps S c (St S 0 s w sc) (St S (length c) (inl v2 :: s) w2 sc).
Proof.
  intros foldk. exists [LoadVar (Local 2); PushVar (Local 0); Asg A_ADD false; PushVar (Local 1); Asg A_ADD false].
  split; [reflexivity|]. intros S s w sc v1 w1 v2 w2 H1 H2.
  do 2 (eapply steps_cons; [reflexivity|]).
  eapply steps_cons; [unfold step; cbn [pc sk wd scs nth_error]; rewrite H1; reflexivity|].
  eapply steps_cons; [reflexivity|].
  eapply steps_cons; [unfold step; cbn [pc sk wd scs nth_error]; rewrite H2; reflexivity|]. apply steps_refl.
Qed.
Print Assumptions C37_compound_chain_refuted.
(** a=10, b=20, c=1: a is 11 and b 31; from the right they would be 31 and 21. *)
Definition locals (n : nat) (r : sres Zx) : option (list zval) :=
  match r with Next _ s => Some (map (fun i => vars (wd Zx s) (Local i)) (seq 0 n)) | _ => None end.
Example C37_compound_case :
  match comp_expr foldx [] C37_compound with
  | Some c => locals 2 (exec Zx 5 c (St Zx 0 [] (world [ZI 10; ZI 20; ZI 1]) []))
  | None => None
  end = Some [ZI 11; ZI 31].
Proof. reflexivity. Qed.

(** ** Concrete programs. *)
Definition result (ss : stmts) (w : zworld) (fuel : nat) : option (list zval) :=
  match comp_fun foldx (fun _ => false) 1 ss with
  | Some c =>
      match exec Zx fuel c (St Zx 0 [] w []) with
      | Done _ _ l => Some (map (fun x => match x with inl v => v | inr _ => ZU end) l)
      | _ => None
      end
  | None => None
  end.
Definition y_ := AVar (Local 1).
(** i,j,k = j,k,i; return i,j,k (top of the stack first). *)
Definition C37_swap : stmts :=
  SCons (SMulti [TVar (Local 0); TVar (Local 1); TVar (Local 2)] (var_args [Local 1; Local 2; Local 0]))
    (one (SReturn (var_args [Local 0; Local 1; Local 2]))).
Example C37_case : ok_stmts foldx goodx false false C37_swap = true /\ tidy_stmts (fun _ => false) C37_swap = true /\
  result C37_swap (world [ZI 1; ZI 2; ZI 3]) 20 = Some [ZI 1; ZI 3; ZI 2].
Proof. repeat split. Qed.
Definition C37_chain_e : expr := Expr (chain A_SET [Local 0; Local 1]) (AVar (Local 2)) (OCons O_ADD (int_ 1) ONil) TNone.
Example C37_chain_case : ok_expr foldx goodx C37_chain_e = true /\
  match comp_expr foldx [] C37_chain_e with
  | Some c => locals 2 (exec Zx 6 c (St Zx 0 [] (world [ZI 10; ZI 20; ZI 1]) []))
  | None => None
  end = Some [ZI 2; ZI 2].
Proof. split; reflexivity. Qed.
(** if(x==1){return 10;} else if(x==2){return 20;} else {return 30;} *)
Definition C39_prog : stmts :=
  one (SIf (eq_ x_ (int_ 1)) (Blk 1 (one (ret_ (int_ 10))))
      (else_chain [(eq_ x_ (int_ 2), Blk 2 (one (ret_ (int_ 20))))] (Some (Blk 3 (one (ret_ (int_ 30))))))).
Example C39_case : ok_stmts foldx goodx false false C39_prog = true /\
  map (fun z => result C39_prog (world [ZI z]) 20) [1; 2; 3] = [Some [ZI 10]; Some [ZI 20]; Some [ZI 30]].
Proof. split; reflexivity. Qed.
(** for(var x=0; x<9; x++){ var t=x; if(t==2){continue;} if(t==5){break;} y=y+t; } return y:
    0+1+3+4. *)
Definition C40_sum : stmts :=
  SCons (SFor 0 (FiVars [(Local 0, Some (e1_ (int_ 0)))]) (Some (lt_ x_ (int_ 9))) (ECons (inc_ 0) ENil)
    (Blk 1 (SCons (SVar (Local 2) (Some (e1_ x_)))
           (SCons (SIf (eq_ (AVar (Local 2)) (int_ 2)) (Blk 2 (one SContinue)) ElNone)
           (SCons (SIf (eq_ (AVar (Local 2)) (int_ 5)) (Blk 3 (one SBreak)) ElNone)
           (one (st_ (Expr (TgCons (TVar (Local 1)) A_SET TgNil) y_ (OCons O_ADD (AVar (Local 2)) ONil) TNone))))))))
  (one (ret_ y_)).
Example C40_case : ok_stmts foldx goodx false false C40_sum = true /\ tidy_stmts (fun _ => false) C40_sum = true /\
  result C40_sum (world [ZU; ZI 0]) 120 = Some [ZI 8].
Proof. repeat split; vm_compute; reflexivity. Qed.
(** switch(x){case 1: y=1; case 2: y=y+10; break; default: y=100; break;} return y. *)
Definition C42_prog : stmts :=
  SCons (SSwitch (e1_ x_) (CCons [LCase (int_ 1)] (one (st_ (set_ 1 (int_ 1)))) false
     (CCons [LCase (int_ 2)] (one (st_ (Expr (TgCons (TVar (Local 1)) A_SET TgNil) y_ (OCons O_ADD (int_ 10) ONil) TNone))) true
     (CCons [LDefault] (one (st_ (set_ 1 (int_ 100)))) true CNil)))) (one (ret_ y_)).
Example C42_case : ok_stmts foldx goodx false false C42_prog = true /\ tidy_stmts (fun _ => false) C42_prog = true /\
  map (fun z => result C42_prog (world [ZI z; ZI 0]) 30) [1; 2; 3] = [Some [ZI 11]; Some [ZI 10]; Some [ZI 100]].
Proof. repeat split; vm_compute; reflexivity. Qed.
(** The leak of C43 with the operators of the language: x counts to 20 in the source,
    the machine is stuck after ten iterations. *)
Definition C43_count : stmts :=
  SCons (SWhile (lt_ x_ (int_ 20)) (Blk 1 (one (SBlock (Blk 2
     (SCons (SVar (Local 1) (Some (e1_ (int_ 7)))) (SCons (st_ (inc_ 0)) (one SContinue)))))))) (one (ret_ x_)).
Example C43_case :
  match comp_fun foldx (fun _ => false) 1 C43_count with
  | Some c => match exec Zx 500 c (St Zx 0 [] (world [ZI 0]) []) with Stuck _ => true | _ => false end
  | None => false
  end = true /\
  match exec_stmts Zx C43_count 30%nat (world [ZI 0]) with Some (ORet _ [inl v] _) => Some v | _ => None end = Some (ZI 20).
Proof. split; vm_compute; reflexivity. Qed.
