(** * Heights of the operand stack in the code of statements. *)
From Coq Require Import ZArith List Bool Lia.
From Verif Require Import Base FloatModel ExprModel VmModel ExprSpec ExprTree ExprShape ExprProofs.
From Verif Require Import StmtModel StmtSpec StmtShape StmtProofs StackModel StackFrag StackExpr.
Import ListNotations.
Local Open Scope Z_scope.

Section StackStmt.
Variable nprim nlprim : Z -> nat -> Z.
Hypothesis Hprim : forall p n, 1 - Z.of_nat n <= nprim p n.
Hypothesis Hlprim : forall p n, 1 - Z.of_nat n <= nlprim p n.
Variable foldk : bop -> const -> const -> fold.
Variable good : bop -> const -> const -> bool.
Variable is_call : Z -> bool.

Notation Frag := (Frag nprim nlprim).
Notation FragT := (FragT nprim nlprim).
Notation tot := (tot nprim nlprim).
Notation up := (up nprim nlprim).
Notation ups := (ups nprim nlprim).
Notation comp_expr := (comp_expr foldk).
Notation ok_expr := (ok_expr foldk good).
Notation ok_args := (ok_args foldk good).
Notation finish := (finish is_call).
Notation S0 := (const_sem foldk).

Lemma expr_up' : forall e c, ok_expr e = true -> comp_expr [] e = Some c -> up c.
Proof. exact (expr_up nprim nlprim Hprim Hlprim foldk good). Qed.
Lemma operand_up : forall a c, ok_operand foldk good a = true -> comp_operand foldk a = Some c -> up c.
Proof. exact (proj1 (up_all nprim nlprim Hprim Hlprim foldk good)). Qed.
Lemma target_up' : forall t c, ok_target foldk good t = true -> comp_target foldk t = Some c -> up c.
Proof. exact (target_up nprim nlprim Hprim Hlprim foldk good). Qed.
Lemma args_ups : forall es c, ok_args es = true -> comp_args foldk es = Some c -> ups (length_es es) c.
Proof. exact (proj1 (proj2 (proj2 (up_all nprim nlprim Hprim Hlprim foldk good)))). Qed.

Lemma plain1 : forall i a b, falls i = true -> tgt i a = None -> (pops i <= a)%nat -> b = fall i a -> Frag [i] a b.
Proof. intros i a b H1 H2 H3 ->. apply Frag_plain; auto. Qed.

(** ** Statements: jumps still marked as break or continue leave with an empty stack. *)
Definition sm (i : instr) : option nat :=
  match i with Jmp BreakMark _ | Jmp ContinueMark _ => Some 0%nat | _ => None end.
Definition Sf (c : code) : Prop := FragT sm none none c 0 0.

Lemma frag_Sf : forall c, Frag c 0 0 -> Sf c.
Proof. intros c H. apply Frag_any. exact H. Qed.

Definition linstr (b k i : Z) (x : instr) : instr :=
  match x with
  | Jmp BreakMark _ => Jmp NoMark (b - i)
  | Jmp ContinueMark _ => Jmp NoMark (k - i)
  | _ => x
  end.
Lemma link_cons : forall b k i x c, link b k i (x :: c) = linstr b k i x :: link b k (i + 1) c.
Proof. intros. destruct x; try reflexivity; destruct m; reflexivity. Qed.
Lemma link_nth : forall c b k i p,
  nth_error (link b k i c) p = option_map (linstr b k (i + Z.of_nat p)) (nth_error c p).
Proof.
  induction c as [|x c IH]; intros b k i p.
  - destruct p; reflexivity.
  - rewrite link_cons. destruct p as [|p].
    + cbn. rewrite Z.add_0_r. reflexivity.
    + cbn [nth_error]. rewrite IH. replace (i + Z.of_nat (S p)) with (i + 1 + Z.of_nat p) by lia. reflexivity.
Qed.
Lemma link_tot : forall c b k i s p, tot s (firstn p (link b k i c)) = tot s (firstn p c).
Proof.
  induction c as [|x c IH]; intros b k i s p; [destruct p; reflexivity|].
  rewrite link_cons. destruct p as [|p]; [reflexivity|]. cbn [firstn StackFrag.tot].
  rewrite IH. f_equal. destruct x; try reflexivity; destruct m; reflexivity.
Qed.
Lemma link_frag : forall c bt kt i T K a b, FragT sm T K c a b ->
  FragT nom (fun z h => T z h \/ (h = 0%nat /\ (z = bt - i \/ z = kt - i))) K (link bt kt i c) a b.
Proof.
  intros c bt kt i T K a b (H & H0 & H1 & H2 & H3 & H4).
  exists H. rewrite link_len. split; [exact H0|]. split; [exact H1|]. split; [exact H2|]. split.
  2:{ intros p Hp. rewrite link_tot. apply H4. exact Hp. }
  intros p j E. rewrite link_nth in E. destruct (nth_error c p) as [y|] eqn:Ey; [|discriminate].
  destruct (H3 p y Ey) as (A & B).
  assert (Ej : j = linstr bt kt (i + Z.of_nat p) y) by (cbn [option_map] in E; congruence).
  clear E. subst j.
  assert (Same : sm y = None -> linstr bt kt (i + Z.of_nat p) y = y ->
    (falls (linstr bt kt (i + Z.of_nat p) y) = true -> H (S p) = fall (linstr bt kt (i + Z.of_nat p) y) (H p)) /\
    jump_ok nom (fun z h => T z h \/ (h = 0%nat /\ (z = bt - i \/ z = kt - i))) H (length c) p (linstr bt kt (i + Z.of_nat p) y)).
  { intros Hn ->. split; [exact A|]. unfold jump_ok in *.
    destruct (tgt y (H p)) as [((m, off), h)|]; [|exact I].
    rewrite Hn in B. destruct m; try discriminate B. destruct B as [B | B]; auto. }
  destruct y; try (apply Same; reflexivity); destruct m; try (apply Same; reflexivity); clear Same.
  all: unfold jump_ok in B; cbn [tgt sm] in B; assert (Bx : H p = 0%nat) by congruence; cbn [linstr];
    (split; [discriminate|]); unfold jump_ok; cbn [tgt]; right; right; split; [exact Bx|]; lia.
Qed.

Definition binstr (b i : Z) (x : instr) : instr := match x with Jmp BreakMark _ => Jmp NoMark (b - i) | _ => x end.
Lemma link_break_cons : forall b i x c, link_break b i (x :: c) = binstr b i x :: link_break b (i + 1) c.
Proof. intros. destruct x; try reflexivity; destruct m; reflexivity. Qed.
Lemma link_break_nth : forall c b i p,
  nth_error (link_break b i c) p = option_map (binstr b (i + Z.of_nat p)) (nth_error c p).
Proof.
  induction c as [|x c IH]; intros b i p.
  - destruct p; reflexivity.
  - rewrite link_break_cons. destruct p as [|p].
    + cbn. rewrite Z.add_0_r. reflexivity.
    + cbn [nth_error]. rewrite IH. replace (i + Z.of_nat (S p)) with (i + 1 + Z.of_nat p) by lia. reflexivity.
Qed.
Lemma link_break_tot : forall c b i s p, tot s (firstn p (link_break b i c)) = tot s (firstn p c).
Proof.
  induction c as [|x c IH]; intros b i s p; [destruct p; reflexivity|].
  rewrite link_break_cons. destruct p as [|p]; [reflexivity|]. cbn [firstn StackFrag.tot].
  rewrite IH. f_equal. destruct x; try reflexivity; destruct m; reflexivity.
Qed.
Lemma link_break_frag : forall c bt i T K a b, FragT sm T K c a b ->
  FragT sm (fun z h => T z h \/ (h = 0%nat /\ z = bt - i)) K (link_break bt i c) a b.
Proof.
  intros c bt i T K a b (H & H0 & H1 & H2 & H3 & H4).
  exists H. rewrite link_break_len. split; [exact H0|]. split; [exact H1|]. split; [exact H2|]. split.
  2:{ intros p Hp. rewrite link_break_tot. apply H4. exact Hp. }
  intros p j E. rewrite link_break_nth in E. destruct (nth_error c p) as [y|] eqn:Ey; [|discriminate].
  destruct (H3 p y Ey) as (A & B).
  assert (Ej : j = binstr bt (i + Z.of_nat p) y) by (cbn [option_map] in E; congruence).
  clear E. subst j.
  assert (Same : binstr bt (i + Z.of_nat p) y = y ->
    (falls (binstr bt (i + Z.of_nat p) y) = true -> H (S p) = fall (binstr bt (i + Z.of_nat p) y) (H p)) /\
    jump_ok sm (fun z h => T z h \/ (h = 0%nat /\ z = bt - i)) H (length c) p (binstr bt (i + Z.of_nat p) y)).
  { intros ->. split; [exact A|]. unfold jump_ok in *.
    destruct (tgt y (H p)) as [((m, off), h)|]; [|exact I].
    destruct m; try exact B. destruct B as [B | B]; auto. }
  destruct y; try (apply Same; reflexivity); destruct m; try (apply Same; reflexivity); clear Same.
  unfold jump_ok in B; cbn [tgt sm] in B; assert (Bx : H p = 0%nat) by congruence; cbn [binstr].
  split; [discriminate|]. unfold jump_ok; cbn [tgt]; right; right; split; [exact Bx|]; lia.
Qed.

(** Code without marks. *)
Lemma nobc_frag : forall T K c a b, nobc c -> FragT sm T K c a b -> FragT nom T K c a b.
Proof.
  intros T K c a b Hn (H & H0 & H1 & H2 & H3 & H4).
  exists H. split; [auto|]. split; [auto|]. split; [auto|]. split; [|auto].
  intros p i E. destruct (H3 p i E) as (A & B). split; [exact A|].
  unfold jump_ok in *. destruct (tgt i (H p)) as [((m, off), h)|] eqn:Et; [|exact I].
  assert (Hi : sm i = None).
  { unfold nobc in Hn. rewrite Forall_forall in Hn. specialize (Hn i (nth_error_In _ _ E)).
    destruct i; try reflexivity. destruct m0; try reflexivity; contradiction. }
  rewrite Hi in B. destruct m; try discriminate; exact B.
Qed.

(** ** Pieces. *)
Lemma jmp_one : forall (T : Z -> nat -> Prop) off, T off 0%nat -> FragT sm T none [Jmp NoMark off] 0 0.
Proof. intros T off H. apply FragT_one; auto; cbn; try lia; try discriminate. Qed.
Lemma jnt_one : forall (T : Z -> nat -> Prop) off, T off 0%nat -> FragT sm T none [Jnt NoMark off] 1 0.
Proof. intros T off H. apply FragT_one; auto; cbn; try lia; try discriminate. Qed.
Lemma jt_one : forall (T : Z -> nat -> Prop) off, T off 0%nat -> FragT sm T none [Jt NoMark off] 1 0.
Proof. intros T off H. apply FragT_one; auto; cbn; try lia; try discriminate. Qed.
Lemma jecase_one : forall (T : Z -> nat -> Prop) off, T off 0%nat -> FragT sm T none [JeCase off] 2 1.
Proof. intros T off H. apply FragT_one; auto; cbn; try lia; try discriminate. Qed.
Lemma jmpcase_one : forall (T : Z -> nat -> Prop) off, T off 0%nat -> FragT sm T none [JmpCase off] 1 0.
Proof. intros T off H. apply FragT_one; auto; cbn; try lia; try discriminate. Qed.
Lemma scope_one : forall (T : Z -> nat -> Prop) i, (i = PopScope \/ exists z, i = PushScope z) -> FragT sm T none [i] 0 0.
Proof. intros T i H. apply Frag_any. destruct H as [-> | (z & ->)]; apply plain1; auto. Qed.

Lemma Sf_nil : Sf [].
Proof. apply FragT_nil. Qed.
Lemma Sf_any : forall T c, Sf c -> FragT sm T none c 0 0.
Proof. intros T c H. eapply FragT_T; [|exact H]. intros ? ? []. Qed.
Lemma Sf_app : forall c1 c2, Sf c1 -> Sf c2 -> Sf (c1 ++ c2).
Proof. intros c1 c2 H1 H2. eapply FragT_seq0; [exact H1 | apply Sf_any; exact H2]. Qed.
Lemma up_any : forall T c a, up c -> FragT sm T none c a (S a).
Proof. intros T c a H. apply Frag_any. apply H. Qed.

Lemma Sf_block : forall z c, Sf c -> Sf ([PushScope z] ++ c ++ [PopScope]).
Proof.
  intros z c H. apply Sf_app; [apply scope_one; eauto|]. apply Sf_app; [exact H | apply scope_one; auto].
Qed.
Lemma body_frag : forall T z c, Sf c ->
  FragT sm T (fun y h => y = Z.of_nat (length c) + 1 /\ h = 0%nat) (body_code z c) 0 0.
Proof.
  intros T z c H. unfold body_code.
  eapply FragT_weaken; [intros ? ? X; exact X | intros ? ? X; exact X | |
    eapply FragT_seq; [apply scope_one; eauto |
    eapply FragT_seq; [apply Sf_any; exact H | apply scope_one; auto]]].
  intros y h (-> & ->). unfold seam. cbn [length]. intuition lia.
Qed.

(** ** Actions and sequences. *)
Definition acts (c : code) : Prop :=
  exists x i, c = x ++ [i] /\ (forall a, Frag x a (a + pops i)) /\ with_reset is_call i <> None.

Lemma with_reset_some : forall i, with_reset is_call i <> None ->
  exists i', with_reset is_call i = Some i' /\ falls i' = true /\ (forall a, tgt i' a = None) /\
    resets i' = true /\ pops i' = pops i.
Proof.
  intros i H. destruct i; cbn [with_reset] in *; try congruence; try (eexists; repeat split; reflexivity).
  destruct (is_call p); [|congruence]. eexists; repeat split; reflexivity.
Qed.
Lemma acts_finish : forall b c a, acts c -> Frag (finish b c) a 0.
Proof.
  intros b c a (x & i & -> & Hx & Hi). rewrite finish_snoc.
  destruct (with_reset_some _ Hi) as (i' & -> & F1 & F2 & F3 & F4).
  eapply Frag_seq; [apply Hx|]. apply plain1; auto; [lia|]. unfold fall. rewrite F3. reflexivity.
Qed.

Lemma action_acts' :
  (forall a, action_operand is_call a = true -> forall c, ok_operand foldk good a = true ->
     comp_operand foldk a = Some c -> acts c) /\
  (forall e, action is_call e = true -> forall c, ok_expr e = true -> comp_expr [] e = Some c -> acts c) /\
  (forall es : exprs, True) /\ (forall os : ops, True) /\ (forall tn : tern, True) /\
  (forall ts : targets, True) /\ (forall t : target, True).
Proof.
  apply syntax_ind; try exact I; try (intros; exact I); try (intros; discriminate).
  - intros p i t _ _ c Hok E. rewrite comp_incdec_eq in E.
    destruct (comp_target foldk t) as [ct|] eqn:Et; [|discriminate]. inversion E; subst.
    eexists ct, _. split; [reflexivity|]. split; [|discriminate].
    intros a. cbn [pops]. rewrite Nat.add_1_r. exact (target_up' _ _ Hok Et a).
  - intros p es _ Ha c Hok E. rewrite comp_prim_eq in E.
    destruct (comp_args foldk es) as [ca|] eqn:Et; [|discriminate]. inversion E; subst.
    eexists ca, _. split; [reflexivity|]. split; [exact (args_ups _ _ Hok Et)|].
    change (action_operand is_call (APrim p es)) with (is_call p) in Ha. cbn [with_reset]. rewrite Ha. discriminate.
  - intros e IH Ha c Hok E. exact (IH Ha c Hok E).
  - intros ts _ hd IH tl _ tn _ Ha c Hok E. destruct ts as [|t a ts].
    + destruct tl; [|discriminate]. destruct tn; [|discriminate].
      destruct (comp_expr_inv _ _ _ _ _ _ E) as (cts & chd & ctl & t & ct & E1 & E2 & E3 & E4 & E5 & Ec).
      inversion E1; subst cts. inversion E3; subst ctl. inversion E5; subst ct. inversion E4; subst t.
      assert (Hn : nomark chd) by apply (shape_operand foldk hd chd E2).
      assert (El : logic_code chd = chd).
      { destruct (logic_code_shape chd) as [(_ & El) | (Hm & _)]; [exact El|].
        rewrite !any_mark_nomark in Hm by auto. discriminate. }
      rewrite El, !app_nil_r in Ec. subst c. exact (IH Ha chd Hok E2).
    + destruct (targets_snoc S0 foldk good t a ts) as (ts' & t' & a' & T1 & T2 & _).
      destruct (comp_expr_inv _ _ _ _ _ _ E) as (cts & chd & ctl & tt & ct & E1 & E2 & E3 & E4 & E5 & Ec).
      destruct (T1 _ E1) as (c1 & c2 & F1 & F2 & ->).
      assert (E' : comp_expr [] (Expr ts' hd tl tn) = Some (logic_code tt ++ ct ++ c1)).
      { rewrite comp_expr_parts in E |- *;
          [| apply shape_operand | apply shape_ops | apply shape_tern | left; reflexivity
           | apply shape_operand | apply shape_ops | apply shape_tern | left; reflexivity].
        rewrite E1 in E. rewrite F1. rewrite E2, E3, E4, E5 in *. cbn [option_map app] in *. reflexivity. }
      assert (Hok1 : ok_expr (Expr ts' hd tl tn) = true /\ ok_target foldk good t' = true).
      { set (Z0 := ok_tree foldk good (tree_of (Info (jumpy hd) (ternish hd) (type_leaf hd)
            (const_operand foldk hd) (ok_operand foldk good hd)) (ok_ops foldk good tl))).
        change (ok_targets foldk good (TgCons t a ts) && ok_tern foldk good tn && Z0 = true) in Hok.
        rewrite !andb_true_iff in Hok. destruct Hok as ((Ok1 & Ok2) & Ok3).
        destruct (T2 Ok1) as (Ok4 & Ok5). split; [|exact Ok5].
        change (ok_targets foldk good ts' && ok_tern foldk good tn && Z0 = true). rewrite Ok4, Ok2, Ok3. reflexivity. }
      destruct Hok1 as (Ok2 & Ok3).
      exists ((logic_code tt ++ ct ++ c1) ++ c2), (Asg a' false).
      split; [subst c; rewrite <- !app_assoc; reflexivity|]. split; [|discriminate].
      intros h. eapply Frag_seq; [exact (expr_up' _ _ Ok2 E' h)|]. cbn [pops].
      replace (h + 2)%nat with (S (S h)) by lia. exact (target_up' _ _ Ok3 F2 (S h)).
Qed.

Lemma seq_any' : forall es c, ok_args es = true -> comp_seq foldk es = Some c -> exists n, ups n c.
Proof.
  induction es as [|e es IH]; intros c Hok E; cbn [comp_seq] in E.
  - inversion E; subst. exists 0%nat. intros a. rewrite Nat.add_0_r. apply FragT_nil.
  - change (ok_expr e && ok_args es = true) in Hok. apply andb_true_iff in Hok. destruct Hok as (O1 & O2).
    destruct (comp_expr [] e) as [c1|] eqn:E1; [|discriminate].
    destruct (comp_seq foldk es) as [c2|]; [|discriminate]. inversion E; subst.
    destruct (IH _ O2 eq_refl) as (n & Hn). exists (S n). intros a.
    eapply Frag_seq; [exact (expr_up' _ _ O1 E1 a)|]. replace (a + S n)%nat with (S a + n)%nat by lia. apply Hn.
Qed.
Lemma last_finish : forall stm e c a, action is_call e || (stm && operators e) = true -> ok_expr e = true ->
  comp_expr [] e = Some c -> Frag (finish stm c) a 0.
Proof.
  intros stm e c a Ht Ok E. destruct (action is_call e) eqn:Ha.
  - apply acts_finish. exact (proj1 (proj2 action_acts') e Ha c Ok E).
  - cbn [orb] in Ht. apply andb_true_iff in Ht. destruct Ht as (-> & Ho).
    destruct (operators_last is_call foldk e c Ho E) as (a0 & x & -> & Hx).
    rewrite finish_snoc, Hx. change [x; Reset] with ([x] ++ [Reset]). rewrite app_assoc.
    eapply Frag_seq; [exact (expr_up' _ _ Ok E a)|]. apply plain1; auto. cbn. lia.
Qed.
Lemma seq_finish : forall stm es c a, tidy_seq is_call stm es = true -> ok_args es = true ->
  comp_seq foldk es = Some c -> es <> ENil -> Frag (finish stm c) a 0.
Proof.
  induction es as [|e es IH]; intros c a Ht Ok E Hne; [congruence|].
  cbn [comp_seq] in E. destruct (comp_expr [] e) as [c1|] eqn:E1; [|discriminate].
  destruct (comp_seq foldk es) as [c2|] eqn:E2; [|discriminate].
  assert (Ec : c = c1 ++ c2) by congruence. subst c. clear E.
  change (ok_expr e && ok_args es = true) in Ok. apply andb_true_iff in Ok. destruct Ok as (O1 & O2).
  destruct es as [|e' es].
  - inversion E2; subst. rewrite app_nil_r. exact (last_finish _ _ _ _ Ht O1 E1).
  - rewrite finish_app by (eapply seq_nonempty; eauto).
    eapply Frag_seq; [exact (expr_up' _ _ O1 E1 a)|]. eapply IH; eauto. discriminate.
Qed.
Lemma seq_frag : forall stm es c, tidy_seq is_call stm es = true -> ok_args es = true ->
  comp_seq foldk es = Some c -> Frag (finish stm c) 0 0.
Proof.
  intros stm es c Ht Ok E. destruct es as [|e es].
  - inversion E; subst. apply FragT_nil.
  - eapply seq_finish; eauto. discriminate.
Qed.

(** ** Variables, multiple assignment, return. *)
Lemma var_frag : forall x oe c, ok_opt foldk good x oe = true -> comp_var foldk is_call x oe = Some c -> Frag c 0 0.
Proof.
  intros x oe c Ok E. destruct oe as [e|]; cbn [comp_var] in E; [|inversion E; apply FragT_nil].
  destruct (comp_expr [] (var_expr x e)) as [c1|] eqn:E1; [|discriminate].
  assert (Ec : c = finish false c1) by congruence. rewrite Ec.
  apply (last_finish false (var_expr x e)); auto. destruct e; reflexivity.
Qed.
Lemma vars_frag : forall vs c, ok_vars foldk good vs = true -> comp_vars foldk is_call vs = Some c -> Frag c 0 0.
Proof.
  induction vs as [|(x, oe) vs IH]; intros c Ok E; cbn [comp_vars] in E; [inversion E; apply FragT_nil|].
  destruct (comp_var foldk is_call x oe) as [c1|] eqn:E1; [|discriminate].
  destruct (comp_vars foldk is_call vs) as [c2|]; [|discriminate].
  assert (Ec : c = c1 ++ c2) by congruence. rewrite Ec.
  assert (O : ok_opt foldk good x oe = true /\ ok_vars foldk good vs = true).
  { destruct oe; cbn [ok_vars ok_opt] in *; [apply andb_true_iff; exact Ok | auto]. }
  destruct O as (O1 & O2). eapply Frag_seq; [exact (var_frag _ _ _ O1 E1) | apply IH; auto].
Qed.
Lemma init_frag : forall i c, ok_init foldk good i = true -> tidy_init is_call i = true ->
  comp_init foldk is_call i = Some c -> Frag c 0 0.
Proof.
  intros [|vs|es] c Ok Ht E; cbn [ok_init tidy_init comp_init] in *.
  - inversion E; apply FragT_nil.
  - eapply vars_frag; eauto.
  - destruct (comp_seq foldk es) as [c1|] eqn:E1; [|discriminate].
    assert (Ec : c = finish false c1) by congruence. rewrite Ec. eapply seq_frag; eauto.
Qed.

Lemma ups_app : forall n m c1 c2, ups n c1 -> ups m c2 -> ups (n + m) (c1 ++ c2).
Proof. intros n m c1 c2 H1 H2 a. eapply Frag_seq; [apply H1|]. rewrite Nat.add_assoc. apply H2. Qed.
Lemma ups_concat : forall cs, Forall up cs -> ups (length cs) (concat cs).
Proof.
  induction 1 as [|c cs H1 _ IH].
  - intros a. cbn. rewrite Nat.add_0_r. apply FragT_nil.
  - cbn [length concat]. apply (ups_app 1); [|exact IH]. intros a. rewrite Nat.add_1_r. apply H1.
Qed.
Lemma codes_up : forall es cs, ok_args es = true -> codes foldk es = Some cs -> Forall up cs.
Proof.
  induction es as [|e es IH]; intros cs Ok E; cbn [codes] in E; [inversion E; constructor|].
  destruct (comp_expr [] e) as [c1|] eqn:E1; [|discriminate].
  destruct (codes foldk es) as [c2|]; [|discriminate]. inversion E; subst.
  change (ok_expr e && ok_args es = true) in Ok. apply andb_true_iff in Ok. destruct Ok as (O1 & O2).
  constructor; [exact (expr_up' _ _ O1 E1) | auto].
Qed.
Lemma ltargets_ups : forall ls c, forallb (ok_target foldk good) ls = true -> comp_ltargets foldk ls = Some c ->
  ups (length ls) c.
Proof.
  induction ls as [|t ls IH]; intros c Ok E; cbn [comp_ltargets forallb length] in *.
  - inversion E. intros a. rewrite Nat.add_0_r. apply FragT_nil.
  - apply andb_true_iff in Ok. destruct Ok as (O1 & O2).
    destruct (comp_target foldk t) as [c1|] eqn:E1; [|discriminate].
    destruct (comp_ltargets foldk ls) as [c2|]; [|discriminate].
    assert (Ec : c = c1 ++ c2) by congruence. rewrite Ec. apply (ups_app 1); [|auto].
    intros a. rewrite Nat.add_1_r. exact (target_up' _ _ O1 E1 a).
Qed.
Lemma multi_frag : forall ls rs c, forallb (ok_target foldk good) ls && ok_args rs = true ->
  comp_multi foldk is_call ls rs = Some c -> Frag c 0 0.
Proof.
  intros ls rs c Ok E. apply andb_true_iff in Ok. destruct Ok as (O1 & O2). unfold comp_multi in E.
  destruct (codes foldk rs) as [cs|] eqn:E1; [|discriminate].
  destruct (comp_ltargets foldk ls) as [ct|] eqn:E2; [|discriminate].
  assert (E3 : c = concat (rev (cs ++ repeat [LoadUndef] (length ls - length cs))) ++ ct ++ [Store (length ls) true]).
  { destruct cs; [discriminate|]. destruct (_ || _ || _); [discriminate|]. inversion E; reflexivity. }
  rewrite E3. eapply Frag_seq; [apply ups_concat|eapply Frag_seq; [exact (ltargets_ups _ _ O1 E2 _)|]].
  - apply Forall_rev. apply Forall_app. split; [eapply codes_up; eauto|].
    apply Forall_forall. intros x Hx. apply repeat_spec in Hx. subst. apply up_plain; auto.
  - apply plain1; auto. cbn. lia.
Qed.
Lemma as_ret_up : forall c, up c -> up (as_ret c).
Proof.
  intros c H. destruct c as [|[] [|? ?]]; try exact H.
  all: destruct x; try exact H; apply up_plain; auto.
Qed.
Lemma rets_ups : forall es c, ok_args es = true -> comp_rets foldk es = Some c -> exists n, ups n c.
Proof.
  induction es as [|e es IH]; intros c Hok E; cbn [comp_rets] in E.
  - inversion E; subst. exists 0%nat. intros a. rewrite Nat.add_0_r. apply FragT_nil.
  - change (ok_expr e && ok_args es = true) in Hok. apply andb_true_iff in Hok. destruct Hok as (O1 & O2).
    destruct (comp_expr [] e) as [c1|] eqn:E1; [|discriminate].
    destruct (comp_rets foldk es) as [c2|]; [|discriminate].
    assert (Ec : c = as_ret c1 ++ c2) by congruence. rewrite Ec.
    destruct (IH _ O2 eq_refl) as (n & Hn). exists (1 + n)%nat. apply ups_app; [|exact Hn].
    intros a. rewrite Nat.add_1_r. apply as_ret_up. exact (expr_up' _ _ O1 E1).
Qed.
Lemma return_frag : forall es c, ok_args es = true -> comp_rets foldk es = Some c -> Frag (c ++ [Ret]) 0 0.
Proof.
  intros es c Ok E. destruct (rets_ups _ _ Ok E) as (n & Hn). eapply Frag_seq; [apply Hn|].
  apply FragT_one; auto; cbn; try discriminate; auto; lia.
Qed.

(** ** Conditionals and loops. *)
Ltac seqs := eapply FragT_weaken; [intros ? ? X; exact X | intros ? ? X; exact X | |].
Ltac retarget Eo := match goal with |- StackFrag.FragT _ _ _ _ ?K _ _ _ => set (KK := K); rewrite Eo; subst KK end.
Ltac known := unfold seam, body_code; rewrite ?app_length; cbn [length]; intuition lia.

Lemma if_frag : forall cc cb cr, up cc -> Sf cb -> match cr with None => True | Some c => Sf c end ->
  Sf (if_code cc cb cr).
Proof.
  intros cc cb cr Hc Hb Hr. unfold if_code. destruct cr as [cr|].
  - set (T := fun (z : Z) (h : nat) => h = 0%nat /\ (z = zlen cc + 1 + zlen cb + 1 \/ z = zlen cc + 1 + zlen cb + 1 + zlen cr)).
    assert (F : FragT sm T (fun z h => h = 0%nat /\ z = zlen cc + 1 + zlen cb + 1)
      (cc ++ [Jnt NoMark (zlen cb + 2)] ++ cb ++ [Jmp NoMark (zlen cr + 1)] ++ cr) 0 0).
    { seqs.
      2:{ eapply FragT_seq; [apply up_any; exact Hc|].
          eapply FragT_seq; [apply jnt_one; unfold T, zlen; cbn [length]; lia|].
          eapply FragT_seq; [apply Sf_any; exact Hb|].
          eapply FragT_seq; [apply jmp_one; unfold T, zlen; cbn [length]; lia|].
          apply Sf_any. exact Hr. }
      intros z h (-> & ->). unfold zlen. known. }
    seqs. 2:{ eapply FragT_ends; [exact F|]. intros z h (-> & [-> | ->]); [left; auto|].
      right; right; left. split; [unfold zlen; rewrite !app_length; cbn [length]; lia | reflexivity]. }
    intros ? ? [].
  - set (T := fun (z : Z) (h : nat) => h = 0%nat /\ z = zlen cc + 1 + zlen cb).
    assert (F : FragT sm T none (cc ++ [Jnt NoMark (zlen cb + 1)] ++ cb) 0 0).
    { eapply FragT_seq0; [apply up_any; exact Hc|].
      eapply FragT_seq0; [apply jnt_one; unfold T, zlen; cbn [length]; lia|]. apply Sf_any; exact Hb. }
    eapply FragT_ends; [exact F|]. intros z h (-> & ->). right; right; left.
    split; [unfold zlen; rewrite !app_length; cbn [length]; lia | reflexivity].
Qed.

Lemma while_frag : forall cc z c, up cc -> Sf c -> Frag (while_code cc (body_code z c)) 0 0.
Proof.
  intros cc z c Hc Hb. unfold while_code. cbv zeta.
  set (cb := body_code z c).
  assert (Lb : zlen cb = zlen c + 2) by (unfold cb, zlen; rewrite body_code_len; lia).
  set (co := cc ++ [Jnt NoMark (zlen cb + 3)] ++ cb ++ [Jmp NoMark (- (zlen cc + 1 + zlen cb)); PopScope]).
  assert (Lc : zlen co = zlen cc + zlen cb + 3) by (unfold co, zlen; rewrite !app_length; cbn [length]; lia).
  set (T := fun (y : Z) (h : nat) => h = 0%nat /\ (y = 0 \/ y = zlen co)).
  assert (F : FragT sm T (fun y h => h = 0%nat /\ (y = zlen co - 1 \/ y = zlen co - 3)) co 0 0).
  { assert (Eo : co = cc ++ [Jnt NoMark (zlen cb + 3)] ++ cb ++ [Jmp NoMark (- (zlen cc + 1 + zlen cb))] ++ [PopScope]) by reflexivity.
    retarget Eo.
    seqs.
    2:{ eapply FragT_seq; [apply up_any; exact Hc|].
        eapply FragT_seq; [apply jnt_one; unfold T, zlen in *; cbn [length]; lia|].
        eapply FragT_seq; [apply body_frag; exact Hb|].
        eapply FragT_seq; [apply jmp_one; unfold T, zlen in *; cbn [length]; lia|].
        apply scope_one; auto. }
    intros y h (-> & Hy). unfold zlen in *. unfold seam. fold cb. cbn [length]. intuition lia. }
  apply (link_frag _ (zlen co - 1) (zlen co - 3) 0) in F.
  seqs. 2:{ eapply FragT_ends; [exact F|]. rewrite link_len. unfold zlen in *.
    intros y h [(-> & [-> | ->]) | (-> & Hy)]; [right; left; auto | right; right; left; auto | left; split; [reflexivity | lia]]. }
  intros ? ? [].
Qed.

Lemma do_frag : forall cc z c, up cc -> Sf c -> Frag (do_code (body_code z c) cc) 0 0.
Proof.
  intros cc z c Hc Hb. unfold do_code. cbv zeta.
  set (cb := body_code z c).
  assert (Lb : zlen cb = zlen c + 2) by (unfold cb, zlen; rewrite body_code_len; lia).
  set (co := cb ++ cc ++ [Jt NoMark (- (zlen cb + zlen cc)); Jmp NoMark 2; PopScope]).
  assert (Lc : zlen co = zlen cc + zlen cb + 3) by (unfold co, zlen; rewrite !app_length; cbn [length]; lia).
  set (T := fun (y : Z) (h : nat) => h = 0%nat /\ (y = 0 \/ y = zlen co)).
  assert (F : FragT sm T (fun y h => h = 0%nat /\ (y = zlen co - 1 \/ y = zlen cb - 1)) co 0 0).
  { assert (Eo : co = cb ++ cc ++ [Jt NoMark (- (zlen cb + zlen cc))] ++ [Jmp NoMark 2] ++ [PopScope]) by reflexivity.
    retarget Eo.
    seqs.
    2:{ eapply FragT_seq; [apply body_frag; exact Hb|].
        eapply FragT_seq; [apply up_any; exact Hc|].
        eapply FragT_seq; [apply jt_one; unfold T, zlen in *; fold cb; cbn [length]; lia|].
        eapply FragT_seq; [apply jmp_one; unfold T, zlen in *; fold cb; cbn [length]; lia|].
        apply scope_one; auto. }
    intros y h (-> & Hy). unfold zlen in *. unfold seam. fold cb. cbn [length]. intuition lia. }
  apply (link_frag _ (zlen co - 1) (zlen cb - 1) 0) in F.
  seqs. 2:{ eapply FragT_ends; [exact F|]. rewrite link_len. unfold zlen in *.
    intros y h [(-> & [-> | ->]) | (-> & Hy)]; [right; left; auto | right; right; left; auto | left; split; [reflexivity | lia]]. }
  intros ? ? [].
Qed.

Lemma for_frag : forall zf wrap ci cic z c cp,
  match cic with Some c1 => exists cc, c1 = ci ++ cc /\ up cc | None => ci = [] end ->
  Frag ci 0 0 -> Sf c -> Frag cp 0 0 -> Frag (for_code zf wrap ci cic (body_code z c) cp) 0 0.
Proof.
  intros zf wrap ci cic z c cp Hcc Hi Hb Hp. unfold for_code. cbv zeta.
  set (cb := body_code z c).
  assert (Lb : zlen cb = zlen c + 2) by (unfold cb, zlen; rewrite body_code_len; lia).
  match goal with |- context [link (zlen ?x - 1) _ 0 ?x] => set (co := x) end.
  assert (F : exists T, FragT sm T (fun y h => h = 0%nat /\ (y = zlen co - 1 \/ y = zlen co - 2 - zlen cp - 1 \/ y = zlen ci)) co 0 0 /\
    forall y h, T y h -> h = 0%nat /\ (y = 0 \/ y = zlen co \/ y = zlen ci)).
  { destruct cic as [c1|].
    - destruct Hcc as (cc & -> & Hc).
      assert (Eo : co = ci ++ cc ++ [Jnt NoMark (zlen cb + zlen cp + 3)] ++ cb ++ cp
           ++ [Jmp NoMark (- (zlen (ci ++ cc) - zlen ci + 1 + zlen cb + zlen cp))] ++ [PopScope])
        by (unfold co; rewrite <- app_assoc; reflexivity).
      assert (Lc : zlen co = zlen ci + zlen cc + zlen cb + zlen cp + 3)
        by (rewrite Eo; unfold zlen; rewrite !app_length; cbn [length]; lia).
      assert (Lic : zlen (ci ++ cc) = zlen ci + zlen cc) by (unfold zlen; rewrite app_length; lia).
      set (T := fun (y : Z) (h : nat) => h = 0%nat /\ (y = 0 \/ y = zlen co \/ y = zlen ci)).
      exists T. split; [|auto]. retarget Eo.
      seqs.
      2:{ eapply FragT_seq; [apply Frag_any; exact Hi|].
          eapply FragT_seq; [apply up_any; exact Hc|].
          eapply FragT_seq; [apply jnt_one; unfold T, zlen in *; fold cb; cbn [length]; lia|].
          eapply FragT_seq; [apply body_frag; exact Hb|].
          eapply FragT_seq; [apply Frag_any; exact Hp|].
          eapply FragT_seq; [apply jmp_one; unfold T, zlen in *; fold cb; cbn [length]; lia|].
          apply scope_one; auto. }
      intros y h (-> & Hy). unfold zlen in *. unfold seam. fold cb. cbn [length]. intuition lia.
    - subst ci.
      assert (Eo : co = cb ++ cp ++ [Jmp NoMark (- (zlen cb + zlen cp))] ++ [PopScope]) by reflexivity.
      assert (Lc : zlen co = zlen cb + zlen cp + 2)
        by (rewrite Eo; unfold zlen; rewrite !app_length; cbn [length]; lia).
      set (T := fun (y : Z) (h : nat) => h = 0%nat /\ (y = 0 \/ y = zlen co)).
      exists T. split; [|unfold T; intuition].
      assert (G : FragT sm T (fun y h => h = 0%nat /\ (y = zlen co - 1 \/ y = zlen co - 2 - zlen cp - 1)) co 0 0).
      { retarget Eo.
        seqs.
        2:{ eapply FragT_seq; [apply body_frag; exact Hb|].
            eapply FragT_seq; [apply Frag_any; exact Hp|].
            eapply FragT_seq; [apply jmp_one; unfold T, zlen in *; fold cb; cbn [length]; lia|].
            apply scope_one; auto. }
        intros y h (-> & Hy). unfold zlen in *. unfold seam. fold cb. cbn [length]. intuition lia. }
      destruct G as (H & H0 & H1 & H2 & H3 & H4). exists H. split; [auto|]. split; [auto|]. split; [|auto].
      intros y h (-> & [Hy | [Hy | Hy]]); [apply H2; auto | apply H2; auto |].
      subst y. cbn. split; [lia | exact H0]. }
  destruct F as (T & F & HT).
  assert (G : Frag (link (zlen co - 1) (zlen co - 2 - zlen cp - 1) 0 co) 0 0).
  { apply (link_frag _ (zlen co - 1) (zlen co - 2 - zlen cp - 1) 0) in F.
    seqs. 2:{ eapply FragT_ends; [exact F|]. rewrite link_len.
      intros y h [Hy | (-> & Hy)].
      - apply HT in Hy. destruct Hy as (-> & [-> | [-> | ->]]); [right; left; auto | right; right; left; auto | left; auto].
      - left. split; [reflexivity | lia]. }
    intros ? ? []. }
  destruct wrap; [|exact G].
  eapply Frag_seq; [apply plain1; auto|]. eapply Frag_seq; [exact G | apply plain1; auto].
Qed.

Lemma ask_frag : forall it k n (r : bool), Frag (it_ask it k n r) 0 (if r then 0%nat else n).
Proof.
  intros it k n r. unfold it_ask.
  change [LoadVar (Local it); ItLoad k; ItCall n r] with ([LoadVar (Local it)] ++ [ItLoad k] ++ [ItCall n r]).
  eapply Frag_seq; [apply plain1 with (b := 1%nat); auto|].
  eapply Frag_seq; [apply plain1 with (b := 1%nat); auto|].
  destruct r; apply plain1; auto.
Qed.
Lemma get_frag : forall xs it, (length xs < 16)%nat -> Frag (it_get xs it) 0 0.
Proof.
  intros xs it H. unfold it_get. rewrite Nat.mod_small by exact H.
  eapply Frag_seq; [apply (ask_frag it ItGet (length xs) false)|].
  eapply Frag_seq.
  - replace (map (fun x => PushVar (Local x)) xs) with (concat (map (fun x => [PushVar (Local x)]) xs)).
    + apply ups_concat. apply Forall_forall. intros c Hc. apply in_map_iff in Hc. destruct Hc as (x & <- & _).
      apply up_plain; auto.
    + clear H. induction xs; cbn; [reflexivity|]. f_equal. exact IHxs.
  - apply plain1; auto. rewrite map_length. cbn. lia.
Qed.

Lemma forin_frag : forall z xs it ca zb c, (length xs < 16)%nat -> up ca -> Sf c ->
  Frag (forin_code z xs it ca (body_code zb c)) 0 0.
Proof.
  intros z xs it ca zb c Hx Ha Hb. unfold forin_code.
  eapply Frag_seq; [apply plain1; auto|].
  eapply Frag_seq.
  { eapply Frag_seq; [apply Ha|].
    change [PushVar (Local it); ItInit] with ([PushVar (Local it)] ++ [ItInit]).
    eapply Frag_seq; [apply plain1 with (b := 2%nat); auto|]. apply plain1 with (b := 0%nat); auto. }
  eapply Frag_seq; [|apply plain1; auto].
  unfold forin_loop. cbv zeta.
  set (ce := it_ask it ItEnd 1 false). set (cg := it_get xs it). set (cp := it_ask it ItNext 0 true).
  set (cb := body_code zb c).
  assert (Lb : zlen cb = zlen c + 2) by (unfold cb, zlen; rewrite body_code_len; lia).
  match goal with |- context [link (zlen ?x - 1) _ 0 ?x] => set (co := x) end.
  assert (Eo : co = ce ++ [Jt NoMark (zlen cg + zlen cb + zlen cp + 3)] ++ cg ++ cb ++ cp
             ++ [Jmp NoMark (- (zlen ce + 1 + zlen cg + zlen cb + zlen cp))] ++ [PopScope]) by reflexivity.
  assert (Lc : zlen co = zlen ce + zlen cg + zlen cb + zlen cp + 3)
    by (rewrite Eo; unfold zlen; rewrite !app_length; cbn [length]; lia).
  pose proof (ask_frag it ItEnd 1 false) as He. cbn match in He. fold ce in He.
  pose proof (get_frag xs it Hx) as Hg. fold cg in Hg.
  pose proof (ask_frag it ItNext 0 true) as Hp. cbn match in Hp. fold cp in Hp.
  clearbody ce cg cp.
  set (T := fun (y : Z) (h : nat) => h = 0%nat /\ (y = 0 \/ y = zlen co)).
  assert (F : FragT sm T (fun y h => h = 0%nat /\ (y = zlen co - 1 \/ y = zlen co - 2 - zlen cp - 1)) co 0 0).
  { retarget Eo.
    seqs.
    2:{ eapply FragT_seq; [apply Frag_any; exact He|].
        eapply FragT_seq; [apply jt_one; unfold T, zlen in *; fold cb; cbn [length]; lia|].
        eapply FragT_seq; [apply Frag_any; exact Hg|].
        eapply FragT_seq; [apply body_frag; exact Hb|].
        eapply FragT_seq; [apply Frag_any; exact Hp|].
        eapply FragT_seq; [apply jmp_one; unfold T, zlen in *; fold cb; cbn [length]; lia|].
        apply scope_one; auto. }
    intros y h (-> & Hy). unfold zlen in *. unfold seam. fold cb. cbn [length]. intuition lia. }
  apply (link_frag _ (zlen co - 1) (zlen co - 2 - zlen cp - 1) 0) in F.
  seqs. 2:{ eapply FragT_ends; [exact F|]. rewrite link_len. unfold zlen in *.
    intros y h [(-> & [-> | ->]) | (-> & Hy)]; [right; left; auto | right; right; left; auto | left; split; [reflexivity | lia]]. }
  intros ? ? [].
Qed.

(** ** switch. *)
Lemma header_frag : forall l n (T : Z -> nat -> Prop), Forall (fun p => up (fst p)) l ->
  (forall c off, In (c, off) l -> T (n + off) 0%nat) -> FragT sm T none (header n l) 1 1.
Proof.
  induction l as [|(c, off) l IH]; intros n T Hl HT; cbn [header]; [apply FragT_nil|].
  inversion Hl; subst.
  eapply FragT_seq0; [apply up_any; assumption|].
  eapply FragT_seq0; [apply jecase_one|].
  - replace (n - zlen c + off + Z.of_nat (length c)) with (n + off) by (unfold zlen; lia).
    apply (HT c). left. reflexivity.
  - apply IH; [assumption|]. intros c' off' Hin.
    replace (n - zlen c - 1 + off' + Z.of_nat (length [JeCase (n - zlen c + off)]) + Z.of_nat (length c)) with (n + off')
      by (unfold zlen; cbn [length]; lia). apply (HT c'). right. exact Hin.
Qed.
Lemma labels_up : forall ls off l d, forallb plain_label ls = true -> comp_labels foldk is_call off ls = Some (l, d) ->
  Forall (fun p => up (fst p)) l /\ (forall c o, In (c, o) l -> o = off) /\ (forall o, d = Some o -> o = off).
Proof.
  induction ls as [|[a|] ls IH]; intros off l d Hp E; cbn [comp_labels forallb] in *.
  - inversion E; subst. split; [constructor|]. split; [intros c o []|discriminate].
  - apply andb_true_iff in Hp. destruct Hp as (P1 & P2).
    destruct (comp_operand foldk a) as [c|] eqn:Ea; [|discriminate].
    destruct (comp_labels foldk is_call off ls) as [(l1, d1)|] eqn:El; [|discriminate].
    assert (E1 : l = (finish false c, off) :: l1) by congruence. assert (E2 : d = d1) by congruence. subst l d.
    destruct (IH _ _ _ P2 El) as (H1 & H2 & H3).
    destruct (plain_finish is_call foldk good a c P1 Ea) as (Ef & Ok). rewrite Ef.
    split; [constructor; [exact (operand_up _ _ Ok Ea) | exact H1]|]. split; [|exact H3].
    intros c' o [Hin | Hin]; [congruence | eapply H2; eauto].
  - destruct (comp_labels foldk is_call off ls) as [(l1, [d1|])|] eqn:El; try discriminate.
    assert (E1 : l = l1) by congruence. assert (E2 : d = Some off) by congruence. subst l d.
    destruct (IH _ _ _ Hp El) as (H1 & H2 & _). split; [exact H1|]. split; [exact H2|]. congruence.
Qed.

(** The starts of the bodies are positions with an empty stack. *)
Definition starts (off : Z) (l : list (code * Z)) (d : option Z) (z : Z) (h : nat) : Prop :=
  h = 0%nat /\ ((exists c, In (c, z + off) l) \/ d = Some (z + off)).

Lemma switch_frag : forall ce body l o, up ce -> Forall (fun p => up (fst p)) l ->
  FragT sm none (starts 0 l (Some o)) body 0 0 -> Sf (switch_code ce body l (Some o)).
Proof.
  intros ce body l o He Hl Hb. unfold switch_code.
  assert (Hbody : Sf body) by (eapply FragT_weaken; [| | |exact Hb]; auto; intros ? ? []).
  destruct body as [|i0 body0] eqn:Eb; [apply Sf_nil|]. rewrite <- Eb in *. clear Eb.
  destruct l as [|p0 l0] eqn:El; [exact Hbody|]. rewrite <- El in *. clear El.
  cbv zeta. set (co := ce ++ header (header_len l) l ++ [JmpCase (o + 1)] ++ body).
  pose proof (header_length l (header_len l)) as Hh.
  assert (Lc : zlen co = zlen ce + header_len l + zlen body).
  { unfold co, zlen in *. rewrite !app_length. cbn [length]. lia. }
  set (T := fun z h => starts 0 l (Some o) (z - zlen ce - header_len l) h).
  assert (F : FragT sm T T co 0 0).
  { unfold co. seqs.
    2:{ eapply FragT_seq; [apply up_any; exact He|].
        eapply FragT_seq.
        { apply header_frag; [exact Hl|]. intros c off Hin. unfold T. split; [reflexivity|]. left. exists c.
          match goal with |- In (c, ?x) _ => replace x with off by (unfold zlen; lia) end. exact Hin. }
        eapply FragT_seq.
        { apply jmpcase_one. unfold T. split; [reflexivity|]. right. f_equal. unfold zlen in *. lia. }
        eapply FragT_T; [|exact Hb]. intros ? ? []. }
    intros z h Hz. unfold seam. right; right. right; right. right; right.
    unfold T in Hz. match goal with |- starts _ _ _ ?x _ => replace x with (z - zlen ce - header_len l) end; [exact Hz|].
    unfold zlen in *. cbn [length]. lia. }
  apply (link_break_frag _ (zlen co) 0) in F.
  seqs. 2:{ eapply FragT_ends; [exact F|]. rewrite link_break_len.
    intros z h [Hz | (-> & ->)]; [left; exact Hz|]. right; right; left. split; [unfold zlen; lia | reflexivity]. }
  intros ? ? [].
Qed.

(** ** Every statement. *)
Definition Qs (s : stmt) := forall n lp sw c bok kok, ok_stmt foldk good bok kok s = true -> tidy_stmt is_call s = true ->
  comp_stmt foldk is_call n lp sw s = Some c -> Sf c.
Definition Qr (r : els) := forall n lp sw cr bok kok, ok_els foldk good bok kok r = true -> tidy_els is_call r = true ->
  comp_els foldk is_call n lp sw r = Some cr -> match cr with None => True | Some c => Sf c end.
Definition Qb (bl : block) :=
  (forall n lp sw c bok kok, ok_block foldk good bok kok false bl = true -> tidy_block is_call bl = true ->
     comp_block foldk is_call n lp sw false bl = Some c -> Sf c) /\
  (forall n lp sw c bok kok, ok_block foldk good bok kok true bl = true -> tidy_block is_call bl = true ->
     comp_block foldk is_call n lp sw true bl = Some c -> exists z c0, c = body_code z c0 /\ Sf c0).
Definition Qss (ss : stmts) := forall n lp sw c bok kok, ok_stmts foldk good bok kok ss = true ->
  tidy_stmts is_call ss = true -> comp_stmts foldk is_call n lp sw ss = Some c -> Sf c.
Definition Qc (cs : clauses) := forall n lp kok off body l d, ok_clauses foldk good kok cs = true ->
  tidy_clauses is_call cs = true -> comp_clauses foldk is_call n lp off cs = Some (body, l, d) ->
  Forall (fun p => up (fst p)) l /\ FragT sm none (starts off l d) body 0 0.

Theorem stmt_heights :
  (forall s, Qs s) /\ (forall r, Qr r) /\ (forall b, Qb b) /\ (forall ss, Qss ss) /\ (forall cs, Qc cs).
Proof.
  apply stmt_syntax_ind.
  - intros n lp sw c bok kok Ok Ht E. inversion E; subst. apply Sf_nil.
  - intros es n lp sw c bok kok Ok Ht E. cbn [comp_stmt] in E. sub E c0 E0. inversion E; subst.
    apply frag_Sf. eapply seq_frag; eauto.
  - intros ls rs n lp sw c bok kok Ok Ht E. apply frag_Sf. eapply multi_frag; eauto.
  - intros x oe n lp sw c bok kok Ok Ht E. apply frag_Sf. eapply var_frag; eauto.
  - intros es n lp sw c bok kok Ok Ht E. cbn [comp_stmt] in E. sub E c0 E0. inversion E; subst.
    apply frag_Sf. eapply return_frag; eauto.
  - intros b (Hb & _) n lp sw c bok kok Ok Ht E. eapply Hb; eauto.
  - intros e b (Hb & _) r Hr n lp sw c bok kok Ok Ht E. cbn [comp_stmt] in E.
    sub E cc E1. sub E cb E2. sub E cr E3. inversion E; subst.
    cbn [ok_stmt tidy_stmt] in Ok, Ht. rewrite !andb_true_iff in Ok; rewrite ?andb_true_iff in Ht. destruct Ok as ((O1 & O2) & O3).
    apply if_frag; [eapply expr_up'; eauto | eapply Hb; eauto; apply Ht | exact (Hr n lp sw cr bok kok O3 (proj2 Ht) E3)].
  - intros e b (_ & Hb) n lp sw c bok kok Ok Ht E. cbn [comp_stmt] in E. sub E cc E1. sub E cb E2. inversion E; subst.
    cbn [ok_stmt] in Ok. rewrite !andb_true_iff in Ok. destruct Ok as (O1 & O2).
    destruct (Hb n true sw cb bok kok O2 Ht E2) as (z & c0 & -> & Hs).
    apply frag_Sf. apply while_frag; [eapply expr_up'; eauto | exact Hs].
  - intros b (_ & Hb) e n lp sw c bok kok Ok Ht E. cbn [comp_stmt] in E. sub E cc E1. sub E cb E2. inversion E; subst.
    cbn [ok_stmt] in Ok. rewrite !andb_true_iff in Ok. destruct Ok as (O1 & O2).
    destruct (Hb n true sw cb bok kok O2 Ht E2) as (z & c0 & -> & Hs).
    apply frag_Sf. apply do_frag; [eapply expr_up'; eauto | exact Hs].
  - intros z init oe post b (_ & Hb) n lp sw c bok kok Ok Ht E. cbn [comp_stmt] in E.
    sub E ci E1. sub E cb E2. sub E cp E3. cbv zeta in E.
    cbn [ok_stmt tidy_stmt] in Ok, Ht. rewrite !andb_true_iff in Ok; rewrite ?andb_true_iff in Ht. destruct Ok as (((O1 & O2) & O3) & O4).
    destruct Ht as ((T1 & T2) & T3).
    destruct (Hb (S n) true sw cb bok kok O3 T3 E2) as (zb & c0 & -> & Hs).
    set (wrap := match init with FiVars _ => true | _ => false end) in E.
    assert (Hc : exists cic, c = for_code z wrap ci cic (body_code zb c0) (finish false cp) /\
      match cic with Some c1 => exists cc, c1 = ci ++ cc /\ up cc | None => ci = [] end).
    { destruct oe as [e|].
      - sub E c1 E4. inversion E; subst. apply andb_true_iff in O4. destruct O4 as (O4 & O5).
        exists (Some c1). split; [reflexivity|].
        assert (Ha : accok ci).
        { destruct init as [|vs|es]; cbn [comp_init] in E1.
          - inversion E1; subst. left. reflexivity.
          - eapply (vars_accok S0 is_call foldk good); eauto.
          - sub E1 c3 E5. inversion E1; subst. eapply (settled_accok S0 is_call foldk good); eauto. }
        rewrite (proj1 (shape_expr foldk e) ci Ha) in E4.
        destruct (comp_expr [] e) as [c3|] eqn:E6; [|discriminate]. exists c3.
        cbn [option_map] in E4. split; [congruence | eapply expr_up'; eauto].
      - inversion E; subst. exists None. split; [reflexivity|]. eapply idle_nil; eauto. }
    destruct Hc as (cic & -> & Hc). apply frag_Sf.
    apply for_frag; [exact Hc | eapply init_frag; eauto | exact Hs | eapply seq_frag; eauto].
  - intros z xs it a b (_ & Hb) n lp sw c bok kok Ok Ht E. cbn [comp_stmt] in E. sub E ca E1. sub E cb E2.
    destruct (it_const ca); inversion E; subst.
    cbn [ok_stmt] in Ok. rewrite !andb_true_iff in Ok. destruct Ok as ((O1 & O2) & O3).
    destruct (Hb (S n) true sw cb bok kok O3 Ht E2) as (zb & c0 & -> & Hs).
    apply Nat.ltb_lt in O1. apply frag_Sf. apply forin_frag; [exact O1 | eapply operand_up; eauto | exact Hs].
  - intros e cs Hcs n lp sw c bok kok Ok Ht E. cbn [comp_stmt] in E. sub E ce E1.
    match type of E with match ?x with _ => _ end = _ => destruct x as [((body, l), d)|] eqn:E2; [|discriminate] end.
    inversion E; subst. cbn [ok_stmt tidy_stmt] in Ok, Ht. rewrite !andb_true_iff in Ok. destruct Ok as (((O1 & O2) & O3) & O4).
    pose proof (default_off is_call foldk cs n lp 0 body l d 0 E2) as Hd.
    destruct (default_at 0 cs) as [j|]; [|discriminate]. destruct Hd as (_ & ->).
    destruct (Hcs n lp kok 0 body l _ O4 Ht E2) as (H1 & H2).
    apply switch_frag; [eapply expr_up'; eauto | exact H1 | exact H2].
  - intros n lp sw c bok kok Ok Ht E. cbn [comp_stmt] in E. destruct (lp || sw); inversion E; subst.
    apply FragT_one; auto; cbn; try discriminate; auto; lia.
  - intros n lp sw c bok kok Ok Ht E. cbn [comp_stmt] in E. destruct lp; inversion E; subst.
    apply FragT_one; auto; cbn; try discriminate; auto; lia.
  - intros n lp sw cr bok kok Ok Ht E. inversion E; subst. exact I.
  - intros b (Hb & _) n lp sw cr bok kok Ok Ht E. cbn [comp_els] in E. sub E c E1. inversion E; subst. eapply Hb; eauto.
  - intros e b (Hb & _) r Hr n lp sw cr0 bok kok Ok Ht E. cbn [comp_els] in E.
    sub E cc E1. sub E cb E2. sub E cr E3. inversion E; subst.
    cbn [ok_els tidy_els] in Ok, Ht. rewrite !andb_true_iff in Ok; rewrite ?andb_true_iff in Ht. destruct Ok as ((O1 & O2) & O3).
    apply if_frag; [eapply expr_up'; eauto | eapply Hb; eauto; apply Ht | exact (Hr n lp sw cr bok kok O3 (proj2 Ht) E3)].
  - intros z ss Hss. split.
    + intros n lp sw c bok kok Ok Ht E. cbn [comp_block] in E. cbn [ok_block] in Ok.
      destruct (Nat.leb_spec 10 n); [discriminate|]. sub E c0 E0. rewrite orb_false_r in E.
      destruct (decl_stmts ss); inversion E; subst.
      * apply (Sf_block z c0). eapply Hss; eauto.
      * eapply Hss; eauto.
    + intros n lp sw c bok kok Ok Ht E. cbn [comp_block] in E. cbn [ok_block] in Ok.
      destruct (Nat.leb_spec 10 n); [discriminate|]. sub E c0 E0. rewrite orb_true_r in E. inversion E; subst.
      exists z, c0. split; [reflexivity|]. eapply Hss; eauto.
  - intros n lp sw c bok kok Ok Ht E. inversion E; subst. apply Sf_nil.
  - intros s Hs ss Hss n lp sw c bok kok Ok Ht E. cbn [comp_stmts] in E. sub E c1 E1. sub E c2 E2. inversion E; subst.
    cbn [ok_stmts tidy_stmts] in Ok, Ht. apply andb_true_iff in Ok; apply andb_true_iff in Ht. destruct Ok as (O1 & O2), Ht as (T1 & T2).
    apply Sf_app; [eapply Hs; eauto | eapply Hss; eauto].
  - intros n lp kok off body l d Ok Ht E. inversion E; subst. split; [constructor|].
    eapply FragT_weaken; [| | |apply Sf_nil]; auto. intros z h (_ & [(c & []) | X]); discriminate.
  - intros ls ss Hss brk cs Hcs n lp kok off body l d Ok Ht E.
    destruct (clauses_inv _ _ _ _ _ _ _ _ _ _ _ _ E) as (c & l1 & d1 & body' & l' & d' & E1 & E2 & E3 & -> & -> & Hd).
    cbn [ok_clauses tidy_clauses] in Ok, Ht. rewrite !andb_true_iff in Ok; rewrite ?andb_true_iff in Ht. destruct Ok as ((O0 & O1) & O2), Ht as (T1 & T2).
    pose proof (Hss n lp true c true kok O1 T1 E1) as H1.
    destruct (Hcs n lp kok _ body' l' d' O2 T2 E3) as (H2 & H3).
    destruct (labels_up _ _ _ _ O0 E2) as (L1 & L2 & L3).
    split; [apply Forall_app; split; assumption|].
    assert (Hc1 : Sf (clause_code brk cs c)).
    { unfold clause_code. destruct brk; [|exact H1]. destruct cs; [exact H1|]. apply Sf_app; [exact H1|].
      apply FragT_one; auto; cbn; try discriminate; auto; lia. }
    assert (F : FragT sm none (seam (length (clause_code brk cs c)) 0 none (starts (off + zlen (clause_code brk cs c)) l' d'))
       (clause_code brk cs c ++ body') 0 0).
    { eapply FragT_seq; [exact Hc1|]. eapply FragT_T; [|exact H3]. intros ? ? []. }
    destruct F as (H & F0 & F1 & F2 & F3 & F4). exists H. split; [auto|]. split; [auto|]. split; [|auto].
    intros z h (-> & Hz).
    assert (Hcase : z = 0 \/ starts (off + zlen (clause_code brk cs c)) l' d' (z - zlen (clause_code brk cs c)) 0%nat).
    { destruct Hz as [(c0 & Hin) | Hz].
      - apply in_app_or in Hin. destruct Hin as [Hin | Hin].
        + left. apply L2 in Hin. lia.
        + right. split; [reflexivity|]. left. exists c0.
          replace (z - _ + _) with (z + off) by lia. exact Hin.
      - destruct d1 as [x|].
        + left. destruct d' as [y|]; [contradiction|]. rewrite Hd in Hz. specialize (L3 _ eq_refl). assert (x = z + off) by congruence. lia.
        + right. split; [reflexivity|]. right. replace (z - _ + _) with (z + off) by lia. congruence. }
    destruct Hcase as [-> | Hcase].
    + split; [lia | exact F0].
    + apply F2. right; right. exact Hcase.
Qed.

(** The code of a function: a fragment, then the last instruction. *)
Lemma fun_body : forall n ss C, ok_stmts foldk good false false ss = true -> tidy_stmts is_call ss = true ->
  comp_fun foldk is_call n ss = Some C -> exists c, C = c ++ [EndFun] /\ Frag c 0 0.
Proof.
  intros n ss C Ok Ht E. unfold comp_fun in E.
  destruct (comp_stmts foldk is_call n false false ss) as [c|] eqn:E1; [|discriminate].
  assert (Ec : C = c ++ [EndFun]) by congruence. exists c. split; [exact Ec|].
  pose proof (proj1 (proj2 (proj2 (proj2 stmt_heights))) ss n false false c false false Ok Ht E1) as H.
  pose proof (proj1 (proj2 (proj2 (proj2 (statements_marks is_call foldk good)))) ss n false false c false false Ok E1) as Hm.
  apply marks_nobc in Hm. exact (nobc_frag _ _ _ _ _ Hm H).
Qed.
Theorem fun_heights : forall n ss C, ok_stmts foldk good false false ss = true -> tidy_stmts is_call ss = true ->
  comp_fun foldk is_call n ss = Some C -> Frag C 0 0.
Proof.
  intros n ss C Ok Ht E. destruct (fun_body n ss C Ok Ht E) as (c & -> & H).
  eapply Frag_seq; [exact H|]. apply FragT_one; auto; cbn; try discriminate; auto; lia.
Qed.

End StackStmt.
