(** The code System::eval runs, against the compiled code. *)
From Coq Require Import ZArith List Bool Lia.
From Verif Require Import Base FloatModel ExprModel VmModel ExprSpec ExprTree ExprShape ExprProofs
  StmtModel StmtSpec StmtShape StmtProofs EvalModel.
Import ListNotations.
Local Open Scope Z_scope.

(** ** The three cases of the patch. *)
Lemma eval_code_cases : forall c,
  (eval_code (c ++ [EndFun]) = c ++ [EndFun] /\ ((length c <= 1)%nat \/ exists a, c = a ++ [Ret])) \/
  (exists a, a <> [] /\ c = a ++ [Reset] /\ eval_code (c ++ [EndFun]) = a ++ [LoadUndef; Ret]) \/
  (exists a x, a <> [] /\ c = a ++ [x] /\ x <> Ret /\ x <> Reset /\ eval_code (c ++ [EndFun]) = c ++ [LoadUndef; Ret]).
Proof.
  intros c. destruct (Nat.le_gt_cases (length c) 1) as [H1 | H1].
  - left. split; [|left; exact H1]. unfold eval_code. cbv zeta. rewrite app_length. cbn [length].
    destruct (Nat.ltb_spec 2 (length c + 1)); [lia | reflexivity].
  - destruct (exists_last (l := c)) as (a & x & ->); [destruct c; [cbn in H1; lia | discriminate]|].
    rewrite app_length in H1. cbn [length] in H1.
    assert (Ha : a <> []) by (destruct a; [cbn in H1; lia | discriminate]).
    assert (En : nth_error ((a ++ [x]) ++ [EndFun]) (length ((a ++ [x]) ++ [EndFun]) - 2) = Some x).
    { rewrite !app_length. cbn [length]. replace (length a + 1 + 1 - 2)%nat with (length a) by lia.
      rewrite <- app_assoc, nth_error_app2, Nat.sub_diag by lia. reflexivity. }
    assert (Hf1 : firstn (length ((a ++ [x]) ++ [EndFun]) - 1) ((a ++ [x]) ++ [EndFun]) = a ++ [x]).
    { rewrite app_length. cbn [length]. rewrite Nat.add_sub, firstn_app, firstn_all, Nat.sub_diag. cbn. apply app_nil_r. }
    assert (Hf2 : firstn (length ((a ++ [x]) ++ [EndFun]) - 2) ((a ++ [x]) ++ [EndFun]) = a).
    { rewrite !app_length, <- app_assoc. cbn [length]. replace (length a + 1 + 1 - 2)%nat with (length a) by lia.
      rewrite firstn_app, firstn_all, Nat.sub_diag. cbn. apply app_nil_r. }
    assert (Hl : (2 <? length ((a ++ [x]) ++ [EndFun]))%nat = true).
    { apply Nat.ltb_lt. rewrite !app_length. cbn [length]. lia. }
    assert (Hx : x = Ret \/ x = Reset \/ (x <> Ret /\ x <> Reset)).
    { destruct x; auto; right; right; split; discriminate. }
    unfold eval_code. cbv zeta. rewrite Hl, En, Hf1, Hf2. destruct Hx as [-> | [-> | (N1 & N2)]].
    + left. split; [reflexivity|]. right. eauto.
    + right. left. exists a. auto.
    + right. right. exists a, x. split; [exact Ha|]. split; [reflexivity|]. split; [exact N1|]. split; [exact N2|].
      destruct x; try reflexivity; contradiction.
Qed.

(** ** The patched code against the compiled one. *)
Section Sim.
Variable S : Sem.

Lemma step_prefix : forall p t1 t2 s, (pc S s < length p)%nat -> step S (p ++ t1) s = step S (p ++ t2) s.
Proof. intros p t1 t2 s H. unfold step. rewrite !nth_error_app1 by auto. reflexivity. Qed.
Lemma step_past : forall C s, (length C <= pc S s)%nat -> step S C s = Stuck S.
Proof. intros C s H. unfold step. apply nth_error_None in H. rewrite H. reflexivity. Qed.

(** From a state at or behind the cut. *)
Lemma tail_ends : forall p t s s' w vs, t = [Reset; EndFun] \/ t = [EndFun] -> (length p <= pc S s)%nat ->
  steps S (p ++ t) s s' ->
  (step S (p ++ t) s' = Done S w vs ->
   vs = [] /\ exists s2 vs2, steps S (p ++ [LoadUndef; Ret]) s s2 /\ step S (p ++ [LoadUndef; Ret]) s2 = Done S w vs2) /\
  step S (p ++ t) s' <> Failed S w.
Proof.
  intros p t [q k w0 sc] s' w vs Ht Hp Hs. cbn [pc] in Hp.
  assert (H0 : forall C i, nth_error (p ++ C) (length p + i) = nth_error C i).
  { intros. rewrite nth_error_app2 by lia. f_equal. lia. }
  pose proof (H0 [LoadUndef; Ret] 0%nat) as L0. pose proof (H0 [LoadUndef; Ret] 1%nat) as L1.
  cbn [nth_error] in L0, L1. rewrite Nat.add_0_r in L0.
  assert (Hlu : forall k, steps S (p ++ [LoadUndef; Ret]) (St S (length p) k w0 sc) (St S (length p + 1) (inl (undefv S) :: k) w0 sc)).
  { intros k1. eapply steps_cons; [|constructor]. unfold step. cbn [pc sk wd scs]. rewrite L0. unfold pushed.
    rewrite Nat.add_1_r. reflexivity. }
  assert (Hre : forall k, step S (p ++ [LoadUndef; Ret]) (St S (length p + 1) k w0 sc) = Done S (leave_all S sc w0) k).
  { intros k1. unfold step. cbn [pc sk wd scs]. rewrite L1. reflexivity. }
  assert (Hst : forall C s1, (length (p ++ C) <= pc S s1)%nat -> steps S (p ++ C) s1 s' ->
     (step S (p ++ C) s' = Done S w vs -> False) /\ step S (p ++ C) s' <> Failed S w).
  { intros C s1 Hl H. inversion H; subst.
    - rewrite step_past by auto. split; discriminate.
    - rewrite step_past in H1 by auto. discriminate. }
  destruct Ht as [-> | ->].
  - pose proof (H0 [Reset; EndFun] 0%nat) as M0. pose proof (H0 [Reset; EndFun] 1%nat) as M1.
    cbn [nth_error] in M0, M1. rewrite Nat.add_0_r in M0.
    destruct (Nat.eq_dec q (length p)) as [-> | N0].
    { inversion Hs as [|s1 s2 s3 A1 A2]; subst.
      - unfold step. cbn [pc sk wd scs]. rewrite M0. split; discriminate.
      - unfold step in A1. cbn [pc sk wd scs] in A1. rewrite M0 in A1. inversion A1; subst; clear A1.
        rewrite <- Nat.add_1_r in A2. inversion A2 as [|s1 s2 s3 B1 B2]; subst.
        + unfold step at 1 3. cbn [pc sk wd scs]. rewrite M1. split; [|discriminate]. intros E. inversion E; subst.
          split; [reflexivity|]. eexists. eexists. split; [apply Hlu | apply Hre].
        + unfold step in B1. cbn [pc sk wd scs] in B1. rewrite M1 in B1. discriminate. }
    destruct (Nat.eq_dec q (length p + 1)) as [-> | N1].
    { inversion Hs as [|s1 s2 s3 B1 B2]; subst.
      + unfold step at 1 3. cbn [pc sk wd scs]. rewrite M1. split; [|discriminate]. intros E. inversion E; subst.
        split; [reflexivity|]. eexists. eexists. split; [constructor | apply Hre].
      + unfold step in B1. cbn [pc sk wd scs] in B1. rewrite M1 in B1. discriminate. }
    destruct (Hst [Reset; EndFun] (St S q k w0 sc)) as (F1 & F2); [cbn [pc]; rewrite app_length; cbn [length]; lia | exact Hs |].
    split; [|exact F2]. intros E. destruct (F1 E).
  - pose proof (H0 [EndFun] 0%nat) as M0. cbn [nth_error] in M0. rewrite Nat.add_0_r in M0.
    destruct (Nat.eq_dec q (length p)) as [-> | N0].
    { inversion Hs as [|s1 s2 s3 B1 B2]; subst.
      + unfold step at 1 3. cbn [pc sk wd scs]. rewrite M0. split; [|discriminate]. intros E. inversion E; subst.
        split; [reflexivity|]. eexists. eexists. split; [apply Hlu | apply Hre].
      + unfold step in B1. cbn [pc sk wd scs] in B1. rewrite M0 in B1. discriminate. }
    destruct (Hst [EndFun] (St S q k w0 sc)) as (F1 & F2); [cbn [pc]; rewrite app_length; cbn [length]; lia | exact Hs |].
    split; [|exact F2]. intros E. destruct (F1 E).
Qed.

Lemma patched_ends : forall p t s s', t = [Reset; EndFun] \/ t = [EndFun] -> steps S (p ++ t) s s' ->
  forall w vs,
  (step S (p ++ t) s' = Done S w vs ->
   exists s2 vs2, steps S (p ++ [LoadUndef; Ret]) s s2 /\ step S (p ++ [LoadUndef; Ret]) s2 = Done S w vs2 /\
                  (vs <> [] -> s2 = s' /\ vs2 = vs)) /\
  (step S (p ++ t) s' = Failed S w ->
   steps S (p ++ [LoadUndef; Ret]) s s' /\ step S (p ++ [LoadUndef; Ret]) s' = Failed S w).
Proof.
  intros p t s s' Ht Hs w vs.
  assert (Hpast : forall s1, (length p <= pc S s1)%nat -> steps S (p ++ t) s1 s' ->
    (step S (p ++ t) s' = Done S w vs ->
     exists s2 vs2, steps S (p ++ [LoadUndef; Ret]) s1 s2 /\ step S (p ++ [LoadUndef; Ret]) s2 = Done S w vs2 /\
                    (vs <> [] -> s2 = s' /\ vs2 = vs)) /\
    (step S (p ++ t) s' = Failed S w ->
     steps S (p ++ [LoadUndef; Ret]) s1 s' /\ step S (p ++ [LoadUndef; Ret]) s' = Failed S w)).
  { intros s1 Hp H. destruct (tail_ends p t s1 s' w vs Ht Hp H) as (F1 & F2). split; [|contradiction].
    intros E. destruct (F1 E) as (-> & s2 & vs2 & A & B). exists s2, vs2. split; [exact A|]. split; [exact B|]. congruence. }
  induction Hs as [s | s1 s2 s3 H1 H2 IH].
  - destruct (Nat.lt_ge_cases (pc S s) (length p)) as [L | L]; [|apply Hpast; [exact L | constructor]].
    rewrite (step_prefix p t [LoadUndef; Ret]) by auto. split.
    + intros E. exists s, vs. split; [constructor|]. split; [exact E|]. auto.
    + intros E. split; [constructor | exact E].
  - destruct (Nat.lt_ge_cases (pc S s1) (length p)) as [L | L].
    + rewrite (step_prefix p t [LoadUndef; Ret]) in H1 by auto. destruct (IH Hpast) as (I1 & I2). split.
      * intros E. destruct (I1 E) as (x & vs2 & A & B). exists x, vs2. split; [|exact B]. econstructor; eauto.
      * intros E. destruct (I2 E) as (A & B). split; [|exact B]. econstructor; eauto.
    + apply Hpast; [exact L|]. econstructor; eauto.
Qed.

(** A program that never ends. *)
Definition endless (C : code) (w : W S) : Prop :=
  forall s, steps S C (St S 0 [] w []) s -> exists s', step S C s = Next S s'.

Lemma steps_snoc : forall C s1 s2 s3, steps S C s1 s2 -> step S C s2 = Next S s3 -> steps S C s1 s3.
Proof. intros C s1 s2 s3 H. induction H; intros E; [econstructor; [exact E | constructor] | econstructor; eauto]. Qed.

Lemma patched_endless : forall p t w, t = [Reset; EndFun] \/ t = [EndFun] -> endless (p ++ t) w -> endless (p ++ [LoadUndef; Ret]) w.
Proof.
  intros p t w Ht H.
  assert (Hin : forall s, steps S (p ++ t) (St S 0 [] w []) s -> (pc S s < length p)%nat).
  { intros s Hs. destruct (Nat.lt_ge_cases (pc S s) (length p)) as [L | L]; [exact L|]. exfalso.
    destruct (H _ Hs) as (s1 & E1). pose proof (H _ (steps_snoc _ _ _ _ Hs E1)) as (s2 & E2).
    assert (Hl : (pc S s < length (p ++ t))%nat) by (eapply step_in; eauto).
    assert (Hn : nth_error (p ++ t) (pc S s) = nth_error t (pc S s - length p)) by (apply nth_error_app2; auto).
    unfold step in E1. rewrite Hn in E1. rewrite app_length in Hl.
    destruct Ht as [-> | ->]; cbn [length] in Hl.
    - destruct (pc S s - length p)%nat as [|[|]] eqn:Eq; cbn [nth_error] in E1; try discriminate; try lia.
      inversion E1; subst. unfold step in E2. cbn [pc] in E2.
      rewrite nth_error_app2 in E2 by lia. replace (Datatypes.S (pc S s) - length p)%nat with 1%nat in E2 by lia. discriminate.
    - replace (pc S s - length p)%nat with 0%nat in E1 by lia. discriminate. }
  assert (Hsame : forall s, steps S (p ++ [LoadUndef; Ret]) (St S 0 [] w []) s -> steps S (p ++ t) (St S 0 [] w []) s).
  { intros s Hs. remember (St S 0 [] w []) as s0 eqn:E0.
    assert (G : forall a b, steps S (p ++ [LoadUndef; Ret]) a b -> steps S (p ++ t) s0 a -> steps S (p ++ t) s0 b).
    { intros a b Hab. induction Hab as [a | a b c A1 A2 IH]; intros Ha; [exact Ha|]. apply IH.
      eapply steps_snoc; [exact Ha|]. rewrite <- A1. apply step_prefix. apply Hin. exact Ha. }
    exact (G s0 s Hs (steps_refl _ _ _)). }
  intros s Hs. apply Hsame in Hs. destruct (H s Hs) as (s' & E). exists s'. rewrite <- E. apply step_prefix, Hin, Hs.
Qed.

(** For the compiled code as a whole. *)
Lemma eval_code_shape : forall c, eval_code (c ++ [EndFun]) = c ++ [EndFun] \/
  exists p t, (t = [Reset; EndFun] \/ t = [EndFun]) /\ c ++ [EndFun] = p ++ t /\ eval_code (c ++ [EndFun]) = p ++ [LoadUndef; Ret].
Proof.
  intros c. destruct (eval_code_cases c) as [(E & _) | [(a & _ & -> & E) | (a & x & _ & -> & _ & _ & E)]].
  - left. exact E.
  - right. exists a, [Reset; EndFun]. split; [auto|]. split; [rewrite <- app_assoc; reflexivity | exact E].
  - right. exists (a ++ [x]), [EndFun]. auto.
Qed.
End Sim.

(** ** Only the last instruction of compiled code is END_FUNCTION. *)
Definition noend (c : code) : Prop := Forall (fun i => i <> EndFun) c.
Lemma noend_app : forall a b, noend (a ++ b) <-> noend a /\ noend b.
Proof. intros; apply Forall_app. Qed.
Lemma ex_noend : forall c, exprish_code c -> noend c.
Proof. intros c H. eapply Forall_impl; [|exact H]. intros [] Hi; try discriminate. contradiction. Qed.
Lemma link_noend : forall c b k i, noend c -> noend (link b k i c).
Proof.
  induction c as [|x c IH]; intros b k i H; [constructor|]. inversion H; subst.
  destruct x; try (constructor; [assumption | apply IH; assumption]).
  destruct m; (constructor; [discriminate | apply IH; assumption]).
Qed.
Lemma link_break_noend : forall c b i, noend c -> noend (link_break b i c).
Proof.
  induction c as [|x c IH]; intros b i H; [constructor|]. inversion H; subst.
  destruct x; try (constructor; [assumption | apply IH; assumption]).
  destruct m; (constructor; [discriminate | apply IH; assumption]).
Qed.
Ltac ne := repeat first [apply noend_app; split | assumption | discriminate | constructor].

Section NoEnd.
Variable S : Sem.
Variable foldk : bop -> const -> const -> fold.
Variable good : bop -> const -> const -> bool.
Variable is_call : Z -> bool.
Notation comp_expr := (comp_expr foldk).

Lemma finish_noend : forall b c, noend c -> noend (finish is_call b c).
Proof.
  intros b c H. unfold finish. destruct (rev c) as [|x l] eqn:E; [exact H|].
  assert (Ec : c = rev l ++ [x]) by (rewrite <- (rev_involutive c), E; reflexivity).
  rewrite Ec in H. apply noend_app in H. destruct H as (H1 & H2).
  destruct (with_reset is_call x) as [x'|] eqn:Ex.
  - apply noend_app. split; [exact H1|]. constructor; [|constructor].
    destruct x; cbn [with_reset] in Ex; try discriminate; try (inversion Ex; discriminate).
    destruct (is_call p); inversion Ex; discriminate.
  - rewrite Ec. destruct b; repeat (apply noend_app; split); auto. repeat constructor. discriminate.
Qed.
Lemma expr_noend : forall e c, comp_expr [] e = Some c -> noend c.
Proof. intros e c E. apply ex_noend. eapply ex_expr; eauto. Qed.
Lemma seq_noend : forall es c, comp_seq foldk es = Some c -> noend c.
Proof.
  induction es as [|e es IH]; intros c E; cbn [comp_seq] in E; [inversion E; constructor|].
  sub E c1 E1. sub E c2 E2. inversion E; subst. apply noend_app. split; [eapply expr_noend; eauto | auto].
Qed.
Lemma var_noend : forall x oe c, comp_var foldk is_call x oe = Some c -> noend c.
Proof.
  intros x [e|] c E; cbn [comp_var] in E; [|inversion E; constructor].
  sub E c1 E1. inversion E; subst. apply finish_noend. eapply expr_noend; eauto.
Qed.
Lemma vars_noend : forall vs c, comp_vars foldk is_call vs = Some c -> noend c.
Proof.
  induction vs as [|(x, oe) vs IH]; intros c E; cbn [comp_vars] in E; [inversion E; constructor|].
  sub E c1 E1. sub E c2 E2. inversion E; subst. apply noend_app. split; [eapply var_noend; eauto | auto].
Qed.
Lemma init_noend : forall i c, comp_init foldk is_call i = Some c -> noend c.
Proof.
  intros [|vs|es] c E; cbn [comp_init] in E; [inversion E; constructor | eapply vars_noend; eauto |].
  sub E c1 E1. inversion E; subst. apply finish_noend. eapply seq_noend; eauto.
Qed.
Lemma codes_noend : forall es cs, codes foldk es = Some cs -> Forall noend cs.
Proof.
  induction es as [|e es IH]; intros cs E; cbn [codes] in E; [inversion E; constructor|].
  sub E c1 E1. sub E c2 E2. inversion E; subst. constructor; [eapply expr_noend; eauto | auto].
Qed.
Lemma concat_noend : forall cs, Forall noend cs -> noend (concat cs).
Proof. induction 1; cbn [concat]; [constructor|]. apply noend_app. auto. Qed.
Lemma ltargets_noend : forall ls c, comp_ltargets foldk ls = Some c -> noend c.
Proof.
  induction ls as [|t ls IH]; intros c E; cbn [comp_ltargets] in E; [inversion E; constructor|].
  sub E c1 E1. sub E c2 E2. inversion E; subst.
  apply noend_app. split; [apply ex_noend; eapply ex_target; eauto | auto].
Qed.
Lemma multi_noend : forall ls rs c, comp_multi foldk is_call ls rs = Some c -> noend c.
Proof.
  intros ls rs c E. unfold comp_multi in E. destruct (codes foldk rs) as [cs|] eqn:E1; [|discriminate].
  destruct (comp_ltargets foldk ls) as [ct|] eqn:E2; [|discriminate]. destruct cs as [|c1 cs]; [discriminate|].
  destruct (_ || _ || _); [discriminate|].
  match type of E with Some ?x = Some _ => assert (Ec : c = x) by congruence end. rewrite Ec. apply noend_app. split.
  - apply concat_noend. apply Forall_rev. apply (Forall_app _ (c1 :: cs)). split; [eapply codes_noend; eauto|].
    apply Forall_forall. intros x Hx. apply repeat_spec in Hx. subst. repeat constructor. discriminate.
  - apply noend_app. split; [eapply ltargets_noend; eauto | ne].
Qed.
Lemma as_ret_noend : forall c, noend c -> noend (as_ret c).
Proof. intros c H. destruct c as [|[] [|? ?]]; try exact H; destruct x; try exact H; ne. Qed.
Lemma rets_noend : forall es c, comp_rets foldk es = Some c -> noend c.
Proof.
  induction es as [|e es IH]; intros c E; cbn [comp_rets] in E; [inversion E; constructor|].
  sub E c1 E1. sub E c2 E2. inversion E; subst.
  apply noend_app. split; [apply as_ret_noend; eapply expr_noend; eauto | auto].
Qed.
Lemma header_noend : forall l n, Forall (fun p => noend (fst p)) l -> noend (header n l).
Proof.
  induction l as [|(c, o) l IH]; intros n H; [constructor|]. inversion H; subst. cbn [header].
  apply noend_app. split; [assumption|]. constructor; [discriminate | apply IH; assumption].
Qed.
Lemma labels_noend : forall ls off l d, comp_labels foldk is_call off ls = Some (l, d) ->
  Forall (fun p => noend (fst p)) l.
Proof.
  induction ls as [|[a|] ls IH]; intros off l d E; cbn [comp_labels] in E.
  - inversion E; constructor.
  - destruct (comp_operand foldk a) as [c|] eqn:Ea; [|discriminate].
    destruct (comp_labels foldk is_call off ls) as [(l1, d1)|] eqn:El; [|discriminate]. inversion E; subst.
    constructor; [|eapply IH; eauto]. cbn [fst]. apply finish_noend, ex_noend. eapply ex_operand; eauto.
  - destruct (comp_labels foldk is_call off ls) as [(l1, [d1|])|] eqn:El; try discriminate.
    inversion E; subst. eapply IH; eauto.
Qed.

Lemma statements_noend :
  (forall s n lp sw c bok kok, ok_stmt foldk good bok kok s = true ->
     comp_stmt foldk is_call n lp sw s = Some c -> noend c) /\
  (forall r n lp sw cr bok kok, ok_els foldk good bok kok r = true ->
     comp_els foldk is_call n lp sw r = Some cr -> match cr with None => True | Some c => noend c end) /\
  (forall bl n lp sw lo c bok kok, ok_block foldk good bok kok lo bl = true ->
     comp_block foldk is_call n lp sw lo bl = Some c -> noend c) /\
  (forall ss n lp sw c bok kok, ok_stmts foldk good bok kok ss = true ->
     comp_stmts foldk is_call n lp sw ss = Some c -> noend c) /\
  (forall cs n lp kok off body l d, ok_clauses foldk good kok cs = true ->
     comp_clauses foldk is_call n lp off cs = Some (body, l, d) -> noend body /\ Forall (fun p => noend (fst p)) l).
Proof.
  assert (Hif : forall cc cb cr, noend cc -> noend cb ->
     match cr with None => True | Some c => noend c end -> noend (if_code cc cb cr)).
  { intros cc cb cr H1 H2 H3. destruct cr; unfold if_code; ne. }
  apply stmt_syntax_ind.
  - intros n lp sw c bok kok Ok E. inversion E; subst. constructor.
  - intros es n lp sw c bok kok Ok E. cbn [comp_stmt] in E. sub E c0 E0. inversion E; subst.
    apply finish_noend. eapply seq_noend; eauto.
  - intros ls rs n lp sw c bok kok Ok E. eapply multi_noend; eauto.
  - intros x oe n lp sw c bok kok Ok E. eapply var_noend; eauto.
  - intros es n lp sw c bok kok Ok E. cbn [comp_stmt] in E. sub E c0 E0. inversion E; subst.
    apply noend_app. split; [eapply rets_noend; eauto | ne].
  - intros b Hb n lp sw c bok kok Ok E. eapply Hb; eauto.
  - intros e b Hb r Hr n lp sw c bok kok Ok E. cbn [comp_stmt] in E. sub E cc E1. sub E cb E2. sub E cr E3. inversion E; subst.
    cbn [ok_stmt] in Ok. rewrite !andb_true_iff in Ok. destruct Ok as ((O1 & O2) & O3).
    apply Hif; [eapply expr_noend; eauto | eapply Hb; eauto | exact (Hr n lp sw cr bok kok O3 E3)].
  - intros e b Hb n lp sw c bok kok Ok E. cbn [comp_stmt] in E. sub E cc E1. sub E cb E2. inversion E; subst.
    cbn [ok_stmt] in Ok. rewrite !andb_true_iff in Ok. destruct Ok as (O1 & O2).
    apply link_noend. assert (noend cb) by (eapply Hb; eauto). assert (noend cc) by (eapply expr_noend; eauto). ne.
  - intros b Hb e n lp sw c bok kok Ok E. cbn [comp_stmt] in E. sub E cc E1. sub E cb E2. inversion E; subst.
    cbn [ok_stmt] in Ok. rewrite !andb_true_iff in Ok. destruct Ok as (O1 & O2).
    apply link_noend. assert (noend cb) by (eapply Hb; eauto). assert (noend cc) by (eapply expr_noend; eauto). ne.
  - intros z init oe post b Hb n lp sw c bok kok Ok E. cbn [comp_stmt] in E.
    cbn [ok_stmt] in Ok. rewrite !andb_true_iff in Ok. destruct Ok as (((O1 & O2) & O3) & O4).
    sub E ci E1. sub E cb E2. sub E cp E3. cbv zeta in E.
    assert (H1 : noend ci) by (eapply init_noend; eauto). assert (H2 : noend cb) by (eapply Hb; eauto).
    assert (H3 : noend (finish is_call false cp)) by (apply finish_noend; eapply seq_noend; eauto).
    assert (Hf : forall wrap cic, match cic with Some c1 => noend c1 | None => True end ->
      noend (for_code z wrap ci cic cb (finish is_call false cp))).
    { intros wrap cic Hc. unfold for_code. cbv zeta.
      match goal with |- context [link ?a ?b ?i ?x] => assert (Hx : noend (link a b i x)) by
        (apply link_noend; destruct cic; ne) end.
      destruct wrap; ne. }
    destruct oe as [e|].
    + sub E c1 E4. inversion E; subst. apply Hf.
      apply andb_true_iff in O4. destruct O4 as (O4 & O5).
      assert (Ha : accok ci).
      { destruct init as [|vs|es]; cbn [comp_init] in E1.
        - inversion E1; subst. left. reflexivity.
        - eapply (vars_accok S); eauto.
        - sub E1 c2 E5. inversion E1; subst. eapply (settled_accok S); eauto. }
      rewrite (proj1 (shape_expr foldk e) ci Ha) in E4.
      destruct (comp_expr [] e) as [c0|] eqn:E0; [|discriminate]. inversion E4; subst.
      apply noend_app. split; [exact H1 | eapply expr_noend; eauto].
    + inversion E; subst. apply Hf. exact I.
  - intros z xs it a b Hb n lp sw c bok kok Ok E. cbn [comp_stmt] in E. sub E ca E1. sub E cb E2.
    cbn [ok_stmt] in Ok. rewrite !andb_true_iff in Ok. destruct Ok as (O1 & O2).
    destruct (it_const ca); inversion E; subst. unfold forin_code, forin_loop. cbv zeta.
    assert (noend cb) by (eapply Hb; eauto). assert (noend ca) by (apply ex_noend; eapply ex_operand; eauto).
    match goal with |- context [link ?a ?b ?i ?x] => assert (Hx : noend (link a b i x)) end.
    { apply link_noend. unfold it_get, it_ask. ne.
      apply Forall_forall. intros x Hx. apply in_map_iff in Hx. destruct Hx as (y & <- & _). discriminate. }
    ne.
  - intros e cs Hcs n lp sw c bok kok Ok E. cbn [comp_stmt] in E. sub E ce E1.
    match type of E with match ?x with _ => _ end = _ => destruct x as [((body, l), d)|] eqn:E2; [|discriminate] end.
    inversion E; subst. cbn [ok_stmt] in Ok. rewrite !andb_true_iff in Ok. destruct Ok as (((O1 & O2) & O3) & O4).
    destruct (Hcs n lp kok 0 body l d O4 E2) as (Hb & Hl).
    assert (Hce : noend ce) by (eapply expr_noend; eauto).
    unfold switch_code. destruct body as [|i0 body]; [constructor|]. destruct l as [|p0 l]; [exact Hb|]. cbv zeta.
    apply link_break_noend. apply noend_app. split; [exact Hce|].
    apply noend_app. split; [apply header_noend; exact Hl|].
    apply noend_app. split; [|exact Hb]. destruct d; ne.
  - intros n lp sw c bok kok Ok E. cbn [comp_stmt] in E. destruct (lp || sw); inversion E; subst. ne.
  - intros n lp sw c bok kok Ok E. cbn [comp_stmt] in E. destruct lp; inversion E; subst. ne.
  - intros n lp sw cr bok kok Ok E. inversion E; subst. exact I.
  - intros b Hb n lp sw cr bok kok Ok E. cbn [comp_els] in E. sub E c E1. inversion E; subst. eapply Hb; eauto.
  - intros e b Hb r Hr n lp sw cr bok kok Ok E. cbn [comp_els] in E. sub E cc E1. sub E cb E2. sub E cr1 E3. inversion E; subst.
    cbn [ok_els] in Ok. rewrite !andb_true_iff in Ok. destruct Ok as ((O1 & O2) & O3).
    apply Hif; [eapply expr_noend; eauto | eapply Hb; eauto | exact (Hr n lp sw cr1 bok kok O3 E3)].
  - intros z ss Hss n lp sw lo c bok kok Ok E. cbn [comp_block] in E. destruct (10 <=? n)%nat; [discriminate|].
    sub E c1 E1. inversion E; subst. cbn [ok_block] in Ok.
    assert (Hc1 : noend c1) by (destruct lo; [|destruct (decl_stmts ss)]; eapply Hss; eauto).
    destruct (decl_stmts ss || lo); ne.
  - intros n lp sw c bok kok Ok E. inversion E; subst. constructor.
  - intros s Hs ss Hss n lp sw c bok kok Ok E. cbn [comp_stmts] in E. sub E c1 E1. sub E c2 E2. inversion E; subst.
    cbn [ok_stmts] in Ok. apply andb_true_iff in Ok. destruct Ok as (O1 & O2).
    apply noend_app. split; [eapply Hs; eauto | eapply Hss; eauto].
  - intros n lp kok off body l d Ok E. inversion E; subst. split; constructor.
  - intros ls ss Hss brk cs Hcs n lp kok off body l d Ok E.
    destruct (clauses_inv _ _ _ _ _ _ _ _ _ _ _ _ E) as (c & l1 & d1 & body' & l' & d' & E1 & E2 & E3 & -> & -> & Hd).
    cbn [ok_clauses] in Ok. rewrite !andb_true_iff in Ok. destruct Ok as ((O1 & O2) & O3).
    destruct (Hcs _ _ _ _ _ _ _ O3 E3) as (H1 & H2). assert (H3 : noend c) by (eapply Hss; eauto).
    split; [|apply Forall_app; split; [eapply labels_noend; eauto | exact H2]].
    destruct brk; [destruct cs|]; ne.
Qed.
End NoEnd.
