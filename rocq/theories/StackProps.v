(** Properties of the stack requirement of compiled functions (C38). *)
From Coq Require Import ZArith List Bool Lia.
From Verif Require Import Base FloatModel ValueModel ExprModel VmModel ExprSpec ExprTree ExprShape ExprProofs
  FoldModel FoldSpec FoldProofs ExprZs ExprProps StmtModel StmtSpec StmtShape StmtProofs StmtProps
  StackModel StackFrag StackExpr StackStmt.
Import ListNotations.
Local Open Scope Z_scope.

(** Throughout: [reach S C s] says that the machine, started at the first
    instruction of [C] with no operands in any world, is in state [s] at some
    moment.  [nprim] and [nlprim] are what is counted for an instruction that
    takes [n] operands and puts one: at least [1 - n]. *)

(** The number of operands never exceeds the number computed when the function
    was compiled, in any execution, finished or not, of any function whose
    statements are [tidy] (C37: they leave no value behind).  Missing for "every
    function": statements that leave a value behind (refuted below), the
    expressions outside [ok_expr] (C31-C36), operands inside array and object
    literals, and what native functions push. *)
Theorem C38_requirement_bounds_operands_partial :
  forall nprim nlprim, (forall p n, 1 - Z.of_nat n <= nprim p n) -> (forall p n, 1 - Z.of_nat n <= nlprim p n) ->
  forall S foldk good is_call n ss C, ok_stmts foldk good false false ss = true -> tidy_stmts is_call ss = true ->
  comp_fun foldk is_call n ss = Some C ->
  forall s, reach S C s -> Z.of_nat (length (sk S s)) <= min_code_stack nprim nlprim C.
Proof.
  intros nprim nlprim Hp Hl S foldk good is_call n ss C Ok Ht E s Hr.
  pose proof (fun_heights nprim nlprim Hp Hl foldk good is_call n ss C Ok Ht E) as F.
  destruct (heights_static nprim nlprim S C 0%nat F) as (H & HH).
  destruct (HH s Hr) as (H1 & H2 & H3). rewrite H2.
  pose proof (min_code_stack_tot nprim nlprim C (pc S s) H1). lia.
Qed.
Print Assumptions C38_requirement_bounds_operands_partial.

(** So the check on entry is enough: while the function runs the top of the
    stack stays inside the array of [size] elements. *)
Theorem C38_entry_check_suffices_partial :
  forall nprim nlprim, (forall p n, 1 - Z.of_nat n <= nprim p n) -> (forall p n, 1 - Z.of_nat n <= nlprim p n) ->
  forall S foldk good is_call n ss C, ok_stmts foldk good false false ss = true -> tidy_stmts is_call ss = true ->
  comp_fun foldk is_call n ss = Some C ->
  forall start size, entry_ok nprim nlprim start size C = true ->
  forall s, reach S C s -> start + Z.of_nat (length (sk S s)) < size.
Proof.
  intros nprim nlprim Hp Hl S foldk good is_call n ss C Ok Ht E start size Ho s Hr.
  pose proof (C38_requirement_bounds_operands_partial nprim nlprim Hp Hl S foldk good is_call n ss C Ok Ht E s Hr).
  unfold entry_ok in Ho. apply negb_true_iff, Z.leb_gt in Ho. lia.
Qed.
Print Assumptions C38_entry_check_suffices_partial.

(** The number of operands at an instruction is the same whichever way the
    instruction was reached, and however often. *)
Theorem C38_height_static_partial :
  forall S foldk good is_call n ss C, ok_stmts foldk good false false ss = true -> tidy_stmts is_call ss = true ->
  comp_fun foldk is_call n ss = Some C ->
  forall s1 s2, reach S C s1 -> reach S C s2 -> pc S s1 = pc S s2 -> length (sk S s1) = length (sk S s2).
Proof.
  intros S foldk good is_call n ss C Ok Ht E s1 s2 R1 R2 Epc.
  assert (Hp : forall (p : Z) n, 1 - Z.of_nat n <= (fun _ n => 1 - Z.of_nat n) p n) by (intros; cbv beta; lia).
  pose proof (fun_heights _ _ Hp Hp foldk good is_call n ss C Ok Ht E) as F.
  destruct (heights_static _ _ S C 0%nat F) as (H & HH).
  destruct (HH s1 R1) as (_ & -> & _). destruct (HH s2 R2) as (_ & -> & _). congruence.
Qed.
Print Assumptions C38_height_static_partial.

(** The machine is always at an instruction of the function. *)
Theorem C38_pc_inside_partial :
  forall S foldk good is_call n ss C, ok_stmts foldk good false false ss = true -> tidy_stmts is_call ss = true ->
  comp_fun foldk is_call n ss = Some C ->
  forall s, reach S C s -> (pc S s < length C)%nat.
Proof.
  intros S foldk good is_call n ss C Ok Ht E s R.
  assert (Hp : forall (p : Z) n, 1 - Z.of_nat n <= (fun _ n => 1 - Z.of_nat n) p n) by (intros; cbv beta; lia).
  destruct (fun_body _ _ Hp Hp foldk good is_call n ss C Ok Ht E) as (c & -> & F).
  exact (inside _ _ S c 0%nat F s R).
Qed.
Print Assumptions C38_pc_inside_partial.

(** The least count allowed. *)
Definition need1 (p : Z) (n : nat) : Z := 1 - Z.of_nat n.

(** What a program that is not tidy does to the requirement, for every number
    [N]: it reaches a state with at least [N] operands, although [R] was computed
    for it. *)
Definition outgrows (S : Sem) (foldk : bop -> const -> const -> fold) (is_call : Z -> bool)
    (nprim nlprim : Z -> nat -> Z) (ss : stmts) (R : Z) : Prop :=
  exists C, comp_fun foldk is_call 0 ss = Some C /\ min_code_stack nprim nlprim C = R /\
  forall w N, exists s, steps S C (St S 0 [] w []) s /\ (N <= length (sk S s))%nat.

Lemma steps_app : forall S C s1 s2 s3, steps S C s1 s2 -> steps S C s2 s3 -> steps S C s1 s3.
Proof. intros S C s1 s2 s3 H. induction H; intros; [assumption|]. econstructor; eauto. Qed.

(** One turn of a loop that leaves a value behind, so any number of turns. *)
Lemma loop_grows : forall S C, (forall w k, exists w' v, steps S C (St S 0 k w []) (St S 0 (v :: k) w' [])) ->
  forall w N, exists s, steps S C (St S 0 [] w []) s /\ (N <= length (sk S s))%nat.
Proof.
  intros S C Turn w N.
  assert (G : exists k w', steps S C (St S 0 [] w []) (St S 0 k w' []) /\ length k = N).
  { induction N as [|N (k & w' & H1 & H2)].
    - exists [], w. split; [constructor | reflexivity].
    - destruct (Turn w' k) as (w2 & v & H3). exists (v :: k), w2. split; [|cbn; congruence].
      eapply steps_app; eassumption. }
  destruct G as (k & w' & H1 & H2). eexists. split; [exact H1|]. cbn [sk]. lia.
Qed.

(** while(true){ switch(k1){ case k2: x=k3; break; } }: no label matches and
    there is no default, so the value of the switch stays. *)
Definition C38_switch (k1 k2 k3 : const) : stmts :=
  one (SWhile (e1_ (AConst (KBool true)))
         (Blk 1 (one (SSwitch (e1_ (AConst k1)) (CCons [LCase (AConst k2)] (one (st_ (set_ 0 (AConst k3)))) true CNil))))).
Theorem C38_unmatched_switch_refuted :
  forall S foldk is_call nprim nlprim k1 k2 k3,
  vbool S (kval S (KBool true)) = Some true ->
  (forall w, caseeq S (kval S k1) (kval S k2) w = EOk false w) ->
  outgrows S foldk is_call nprim nlprim (C38_switch k1 k2 k3) 3.
Proof.
  intros S foldk is_call nprim nlprim k1 k2 k3 Hb Hc.
  exists [LoadK (KBool true); Jnt NoMark 12; PushScope 1; LoadK k1; LoadK k2; JeCase 2; Jmp NoMark 4;
          LoadK k3; PushVar (Local 0); Asg A_SET true; PopScope; Jmp NoMark (-11); PopScope; EndFun].
  split; [reflexivity|]. split; [reflexivity|].
  apply loop_grows. intros w k. exists (popsc S 1 w), (inl (kval S k1)).
  eapply steps_cons; [reflexivity|].
  eapply steps_cons; [unfold step; cbn [pc sk wd scs nth_error]; rewrite Hb; reflexivity|].
  eapply steps_cons; [reflexivity|].
  eapply steps_cons; [reflexivity|].
  eapply steps_cons; [reflexivity|].
  eapply steps_cons; [unfold step; cbn [pc sk wd scs nth_error]; rewrite Hc; reflexivity|].
  eapply steps_cons; [reflexivity|].
  eapply steps_cons; [reflexivity|].
  eapply steps_cons; [reflexivity|].
  apply steps_refl.
Qed.
Print Assumptions C38_unmatched_switch_refuted.

(** while(true){ true ? p() : q(); }: only the call of the last branch drops its
    result. *)
Definition C38_ternary (p q : Z) : stmts :=
  one (SWhile (e1_ (AConst (KBool true)))
         (Blk 1 (one (st_ (Expr TgNil (AConst (KBool true)) ONil (TSome (e1_ (APrim p ENil)) (e1_ (APrim q ENil)))))))).
Theorem C38_ternary_statement_refuted :
  forall S foldk is_call p q,
  is_call q = true -> vbool S (kval S (KBool true)) = Some true ->
  (forall w, exists v w', prim S p [] w = EOk v w') ->
  outgrows S foldk is_call need1 need1 (C38_ternary p q) 2.
Proof.
  intros S foldk is_call p q Hq Hb Hc.
  exists [LoadK (KBool true); Jnt NoMark 10; PushScope 1; LoadK (KBool true); Jnt NoMark 3; Prim p 0 false;
          Jmp NoMark 2; Prim q 0 true; PopScope; Jmp NoMark (-9); PopScope; EndFun].
  split; [cbn; rewrite Hq; reflexivity|]. split; [reflexivity|].
  apply loop_grows. intros w k. destruct (Hc w) as (v & w' & Ev). exists (popsc S 1 w'), (inl v).
  eapply steps_cons; [reflexivity|].
  eapply steps_cons; [unfold step; cbn [pc sk wd scs nth_error]; rewrite Hb; reflexivity|].
  eapply steps_cons; [reflexivity|].
  eapply steps_cons; [reflexivity|].
  eapply steps_cons; [unfold step; cbn [pc sk wd scs nth_error]; rewrite Hb; reflexivity|].
  eapply steps_cons; [apply (f_equal (fun r => of_ev S r (fun v w' => pushed S false 5 (inl v) k w' [1])) Ev)|].
  eapply steps_cons; [reflexivity|].
  eapply steps_cons; [reflexivity|].
  eapply steps_cons; [reflexivity|].
  apply steps_refl.
Qed.
Print Assumptions C38_ternary_statement_refuted.

(** Non-vacuity: a loop with a counter, a switch. *)
Definition required (ss : stmts) : option Z :=
  match comp_fun foldx (fun _ => false) 1 ss with
  | Some c => Some (min_code_stack need1 need1 c)
  | None => None
  end.
Example C38_case :
  ok_stmts foldx goodx false false C40_sum = true /\ tidy_stmts (fun _ => false) C40_sum = true /\
  required C40_sum = Some 2 /\
  ok_stmts foldx goodx false false C42_prog = true /\ tidy_stmts (fun _ => false) C42_prog = true /\
  exists n, required C42_prog = Some n /\ 2 <= n.
Proof. repeat split; try (vm_compute; reflexivity). eexists; split; [vm_compute; reflexivity | lia]. Qed.
