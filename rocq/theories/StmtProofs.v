(** * Compiled statements do what the specification says. *)
From Coq Require Import ZArith List Bool Lia.
From Verif Require Import Base FloatModel ExprModel VmModel ExprSpec ExprTree ExprShape ExprProofs.
From Verif Require Import StmtModel StmtSpec StmtShape.
Import ListNotations.
Local Open Scope Z_scope.

Section Sim.
Variable S : Sem.

(** ** Code inside a larger program. *)
Definition shift (p : nat) (s : st S) : st S := St S (p + pc S s) (sk S s) (wd S s) (scs S s).
Definition shift_res (p : nat) (r : sres S) : sres S :=
  match r with Next _ s => Next S (shift p s) | _ => r end.

Lemma code_at_nth : forall C p c i x, code_at C p c -> nth_error c i = Some x ->
  nth_error C (p + i) = Some x.
Proof.
  intros C p c i x (C1 & C2 & -> & <-) H.
  rewrite nth_error_app2 by lia. replace (length C1 + i - length C1)%nat with i by lia.
  rewrite nth_error_app1; [exact H|]. apply nth_error_Some. congruence.
Qed.

Lemma jump_shift : forall p i off s r, jump S i off s = r -> r <> Stuck S ->
  jump S (p + i) off (St S (p + i) (sk S s) (wd S s) (scs S s)) = shift_res p r.
Proof.
  intros p i off s r E Hn. unfold jump in *. cbn [sk wd scs].
  destruct (Z.of_nat i + off <? 0) eqn:B; [congruence|]. apply Z.ltb_ge in B.
  assert (B2 : (Z.of_nat (p + i) + off <? 0) = false) by (apply Z.ltb_ge; lia).
  rewrite B2. subst r. cbn [shift_res]. unfold shift. cbn [pc sk wd scs]. do 2 f_equal. lia.
Qed.

(** One step of an instruction that is at place [i] of [c] and place [p + i]
    of [C]. *)
Lemma step_shift_at : forall C c p i s w sc r,
  nth_error C (p + i) = nth_error c i ->
  step S c (St S i s w sc) = r -> r <> Stuck S ->
  step S C (St S (p + i) s w sc) = shift_res p r.
Proof.
  intros C c p i s w sc r HN E Hr. unfold step in *. cbn [pc sk wd scs] in *. rewrite HN.
  destruct (nth_error c i) as [x|]; [|congruence].
  assert (Hpush : forall b v k w0, pushed S b (p + i) v k w0 sc = shift_res p (pushed S b i v k w0 sc)).
  { intros. unfold pushed. cbn [shift_res]. unfold shift. cbn [pc sk wd scs]. do 2 f_equal. lia. }
  assert (Hev : forall A (r : ev (W S) A) k1 k2,
    (forall a w0, of_ev S r k2 = k2 a w0 -> k2 a w0 <> Stuck S -> k1 a w0 = shift_res p (k2 a w0)) ->
    of_ev S r k2 <> Stuck S -> of_ev S r k1 = shift_res p (of_ev S r k2)).
  { intros A [a w0 | w0] k1 k2 H Hs; cbn [of_ev shift_res] in *; [apply H; auto | reflexivity]. }
  assert (Hsame : forall b, St S (p + Datatypes.S i) b = St S (Datatypes.S (p + i)) b).
  { intros. f_equal. lia. }
  destruct x; subst r; try apply Hpush.
  - destruct (pop_two S op1 v2 props s w) as [((a, b), k)|]; [|congruence]. apply Hev; auto.
  - destruct s as [|[a|] s]; try congruence. apply Hev; auto.
  - destruct s as [|[a|] s]; try congruence. apply Hev; auto.
  - destruct s as [|[a|l] s]; try congruence. apply Hev; auto.
  - destruct s as [|[a0|l] [|[v|] s]]; try congruence. apply Hev; auto.
  - destruct (take_args S n s []) as [(ls, k1)|]; [|congruence].
    destruct (take_args S n k1 []) as [(vs, k2)|]; [|congruence].
    destruct (store_all S (rev ls) vs w) as [r|]; [|congruence]. apply Hev; auto.
    intros. cbn [shift_res]. unfold shift. cbn [pc sk wd scs]. rewrite Hsame. reflexivity.
  - destruct (take_args S n s []) as [(ls, k1)|]; [|congruence]. apply Hev; auto.
  - destruct (take_args S n s []) as [(ls, k1)|]; [|congruence]. apply Hev; auto.
  - destruct s as [|[v|l] [|[u|] s]]; try congruence. apply Hev; auto.
    intros. cbn [shift_res]. unfold shift. cbn [pc sk wd scs]. rewrite Hsame. reflexivity.
  - destruct s as [|[v|] s]; try congruence. apply Hev; auto.
  - destruct s as [|[v|] s]; try congruence. apply Hev; auto.
    intros. cbn [shift_res]. unfold shift. cbn [pc sk wd scs]. rewrite Hsame. reflexivity.
  - apply (jump_shift p i off (St S i s w sc) _ eq_refl Hr).
  - destruct s as [|[v|] s]; try congruence. destruct (vbool S v) as [[|]|]; [| |reflexivity].
    + cbn [shift_res]. unfold shift. cbn [pc sk wd scs]. rewrite Hsame. reflexivity.
    + apply (jump_shift p i off (St S i s w sc) _ eq_refl Hr).
  - destruct s as [|[v|] s]; try congruence. destruct (vbool S v) as [[|]|]; [| |reflexivity].
    + apply (jump_shift p i off (St S i s w sc) _ eq_refl Hr).
    + cbn [shift_res]. unfold shift. cbn [pc sk wd scs]. rewrite Hsame. reflexivity.
  - destruct s as [|[v|] [|[u|] s]]; try congruence. apply Hev; auto.
    intros [|] w0 _ Hs.
    + apply (jump_shift p i off (St S i [] w0 sc) _ eq_refl Hs).
    + cbn [shift_res]. unfold shift. cbn [pc sk wd scs]. rewrite Hsame. reflexivity.
  - apply (jump_shift p i off (St S i [] w sc) _ eq_refl Hr).
  - cbn [shift_res]. unfold shift. cbn [pc sk wd scs]. rewrite Hsame. reflexivity.
  - destruct (length sc <? max_scopes)%nat; [|congruence].
    cbn [shift_res]. unfold shift. cbn [pc sk wd scs]. rewrite Hsame. reflexivity.
  - destruct sc as [|z sc]; [congruence|].
    cbn [shift_res]. unfold shift. cbn [pc sk wd scs]. rewrite Hsame. reflexivity.
  - reflexivity.
  - reflexivity.
Qed.

Lemma step_in : forall c s s', step S c s = Next S s' -> (pc S s < length c)%nat.
Proof.
  intros c s s' H. unfold step in H. destruct (nth_error c (pc S s)) eqn:E; [|discriminate].
  apply nth_error_Some. congruence.
Qed.
Lemma steps_end : forall c s s', steps S c s s' -> (length c <= pc S s)%nat -> s' = s.
Proof.
  intros c s s' H L. inversion H; subst; [reflexivity|]. apply step_in in H0. lia.
Qed.

(** ** The last instruction with the reset property. *)
Section Reset.
Variable is_call : Z -> bool.
Variable r : code.
Variable i i' : instr.
Hypothesis Hi : with_reset is_call i = Some i'.

Lemma reset_last : forall c C p q s w sc res,
  nth_error c q = Some i -> nth_error C (p + q) = Some i' ->
  step S c (St S q s w sc) = res -> res <> Stuck S ->
  match res with
  | Next _ s' => pc S s' = Datatypes.S q /\ scs S s' = sc /\
      step S C (St S (p + q) s w sc) = Next S (St S (p + Datatypes.S q) [] (wd S s') sc)
  | Failed _ w' => step S C (St S (p + q) s w sc) = Failed S w'
  | _ => False
  end.
Proof.
  intros c C p q s w sc res H1 H2 E Hn. unfold step in *. cbn [pc sk wd scs] in *. rewrite H1 in E. rewrite H2.
  replace (p + Datatypes.S q)%nat with (Datatypes.S (p + q)) by lia.
  destruct i; cbn [with_reset] in Hi; try discriminate.
  - inversion Hi; subst. destruct s as [|[a|l] s]; try congruence.
    destruct (incdec S post inc l w) as [v w1 | w1]; cbn [of_ev]; [|reflexivity].
    unfold pushed; cbn [pc scs wd]. auto.
  - inversion Hi; subst. destruct s as [|[a'|l] [|[v|] s]]; try congruence.
    destruct (assign S a l v w) as [v1 w1 | w1]; cbn [of_ev]; [|reflexivity].
    unfold pushed; cbn [pc scs wd]. auto.
  - inversion Hi; subst. destruct (take_args S n s []) as [(ls, k1)|]; [|congruence].
    destruct (take_args S n k1 []) as [(vs, k2)|]; [|congruence].
    destruct (store_all S (rev ls) vs w) as [[x w1 | w1]|]; [| |congruence]; cbn [of_ev]; [|reflexivity].
    cbn [pc scs wd]. auto.
  - destruct (is_call p0); inversion Hi; subst.
    destruct (take_args S n s []) as [(ls, k1)|]; [|congruence].
    destruct (prim S p0 ls w) as [v w1 | w1]; cbn [of_ev]; [|reflexivity].
    unfold pushed; cbn [pc scs wd]. auto.
Qed.

Variables (C : code) (p : nat).
Hypothesis HC : code_at C p (r ++ [i']).

Lemma reset_nth : forall q, (q < length r)%nat -> nth_error C (p + q) = nth_error (r ++ [i]) q.
Proof.
  intros q Hq. rewrite nth_error_app1 by auto. destruct (nth_error r q) as [x|] eqn:E.
  - eapply code_at_nth; [exact HC|]. rewrite nth_error_app1 by auto. exact E.
  - apply nth_error_None in E. lia.
Qed.
Lemma reset_nth_last : nth_error C (p + length r) = Some i'.
Proof.
  eapply code_at_nth; [exact HC|]. rewrite nth_error_app2, Nat.sub_diag by lia. reflexivity.
Qed.
Lemma last_nth : nth_error (r ++ [i]) (length r) = Some i.
Proof. rewrite nth_error_app2, Nat.sub_diag by lia. reflexivity. Qed.

Lemma reset_steps : forall s1 s2, steps S (r ++ [i]) s1 s2 -> pc S s2 = length (r ++ [i]) ->
  exists s', steps S C (shift p s1) (St S (p + length (r ++ [i])) s' (wd S s2) (scs S s2)).
Proof.
  intros s1 s2 H. induction H as [s | s1 s2 s3 H1 H2 IH]; intros Hpc.
  - exists (sk S s). unfold shift. rewrite Hpc. constructor.
  - specialize (IH Hpc). pose proof (step_in _ _ _ H1) as Hlt. rewrite app_length in Hlt. cbn [length] in Hlt.
    destruct s1 as [q s w sc]. cbn [pc] in Hlt. unfold shift. cbn [pc sk wd scs].
    destruct (Nat.eq_dec q (length r)) as [-> | Hq].
    + pose proof (reset_last _ C p _ s w sc _ last_nth reset_nth_last H1 ltac:(discriminate)) as HL.
      cbn beta iota in HL. destruct HL as (HL1 & HL2 & HL3).
      assert (Hend : s3 = s2). { eapply steps_end; [exact H2|]. rewrite app_length. cbn. lia. }
      subst s3. exists []. apply steps_one. rewrite HL3. rewrite HL2. do 2 f_equal. rewrite app_length. cbn. lia.
    + destruct IH as (s' & IH). exists s'. econstructor; [|exact IH].
      apply (step_shift_at C _ p q s w sc _ (reset_nth q ltac:(lia)) H1). discriminate.
Qed.

Lemma reset_steps_in : forall s1 s2, steps S (r ++ [i]) s1 s2 -> (pc S s2 < length (r ++ [i]))%nat ->
  steps S C (shift p s1) (shift p s2).
Proof.
  intros s1 s2 H. induction H as [s | s1 s2 s3 H1 H2 IH]; intros Hpc; [constructor|].
  specialize (IH Hpc). pose proof (step_in _ _ _ H1) as Hlt. rewrite app_length in Hlt. cbn [length] in Hlt.
  destruct s1 as [q s w sc]. cbn [pc] in Hlt. unfold shift at 1. cbn [pc sk wd scs].
  destruct (Nat.eq_dec q (length r)) as [-> | Hq].
  - pose proof (reset_last _ C p _ s w sc _ last_nth reset_nth_last H1 ltac:(discriminate)) as HL.
    cbn beta iota in HL. destruct HL as (HL1 & HL2 & HL3).
    assert (Hend : s3 = s2). { eapply steps_end; [exact H2|]. rewrite app_length. cbn. lia. }
    subst s3. rewrite app_length in Hpc. cbn in Hpc. lia.
  - econstructor; [|exact IH].
    apply (step_shift_at C _ p q s w sc _ (reset_nth q ltac:(lia)) H1). discriminate.
Qed.

Lemma reset_fails : forall s1 w', fails S (r ++ [i]) s1 w' -> fails S C (shift p s1) w'.
Proof.
  intros s1 w' (s2 & H1 & H2).
  assert (Hlt : (pc S s2 < length (r ++ [i]))%nat).
  { unfold step in H2. destruct (nth_error (r ++ [i]) (pc S s2)) eqn:E; [|discriminate].
    apply nth_error_Some. congruence. }
  exists (shift p s2). split; [apply reset_steps_in; auto|].
  destruct s2 as [q s w sc]. unfold shift. cbn [pc sk wd scs] in *. rewrite app_length in Hlt. cbn in Hlt.
  destruct (Nat.eq_dec q (length r)) as [-> | Hq].
  - exact (reset_last _ C p _ s w sc _ last_nth reset_nth_last H2 ltac:(discriminate)).
  - exact (step_shift_at C _ p q s w sc _ (reset_nth q ltac:(lia)) H2 ltac:(discriminate)).
Qed.
End Reset.

(** ** Code that changes the world; [R] relates the stack before and after. *)
Definition rel := list (slot S) -> list (slot S) -> Prop.
Definition any : rel := fun _ _ => True.
Definition emptied : rel := fun _ s' => s' = [].
Definition same : rel := fun s s' => s' = s.
Definition td (t : bool) : rel := fun s s' => t = true -> s = [] -> s' = [].

Definition runs (R : rel) (c : code) {A} (d : W S -> ev (W S) A) : Prop :=
  forall C p s w sc, code_at C p c ->
  match d w with
  | EOk _ w' => exists s', steps S C (St S p s w sc) (St S (p + length c) s' w' sc) /\ R s s'
  | EErr w' => fails S C (St S p s w sc) w'
  end.

Lemma runs_weaken : forall (R1 R2 : rel) A (d : W S -> ev (W S) A) c, (forall s s', R1 s s' -> R2 s s') ->
  runs R1 c d -> runs R2 c d.
Proof.
  intros R1 R2 A d c HR H C p s w sc HC. specialize (H C p s w sc HC). destruct (d w); [|exact H].
  destruct H as (s' & H & Hr). eauto.
Qed.
Lemma computes_runs : forall c d, computes S c d -> runs any c d.
Proof.
  intros c d H C p s w sc HC. specialize (H C p s w sc HC). destruct (d w); [|exact H].
  eexists. split; [exact H | exact I].
Qed.
Lemma runs_seq : forall (R1 R2 R : rel) A B (d1 : W S -> ev (W S) A) (d2 : W S -> ev (W S) B) c1 c2,
  (forall s1 s2 s3, R1 s1 s2 -> R2 s2 s3 -> R s1 s3) ->
  runs R1 c1 d1 -> runs R2 c2 d2 -> runs R (c1 ++ c2) (fun w => ebind (d1 w) (fun _ w' => d2 w')).
Proof.
  intros R1 R2 R A B d1 d2 c1 c2 HR H1 H2 C p s w sc HC. apply code_at_app in HC. destruct HC as (HC1 & HC2).
  specialize (H1 C p s w sc HC1). destruct (d1 w) as [a w1 | w1]; cbn [ebind]; [|exact H1].
  destruct H1 as (s1 & H1 & R1s). specialize (H2 C _ s1 w1 sc HC2). destruct (d2 w1) as [b w2 | w2].
  - destruct H2 as (s2 & H2 & R2s). exists s2. rewrite app_length, Nat.add_assoc.
    split; [eapply steps_trans; eauto | eauto].
  - eapply fails_trans; eauto.
Qed.
Lemma runs_ext : forall R A B (d1 : W S -> ev (W S) A) (d2 : W S -> ev (W S) B) c,
  (forall w, match d1 w, d2 w with
             | EOk _ w1, EOk _ w2 => w1 = w2
             | EErr w1, EErr w2 => w1 = w2
             | _, _ => False
             end) -> runs R c d1 -> runs R c d2.
Proof.
  intros R A B d1 d2 c He H C p s w sc HC. specialize (H C p s w sc HC). specialize (He w).
  destruct (d1 w), (d2 w); subst; tauto.
Qed.
Lemma runs_nil : forall A (a : A), runs same [] (fun w => EOk a w).
Proof.
  intros A a C p s w sc HC. exists s. cbn [length]. rewrite Nat.add_0_r. split; [constructor | reflexivity].
Qed.

(** ** Completed expression statements. *)
Variable is_call : Z -> bool.

Lemma finish_app : forall b a c, c <> [] -> finish is_call b (a ++ c) = a ++ finish is_call b c.
Proof.
  intros b a c H. unfold finish. rewrite rev_app_distr.
  destruct (rev c) as [|x l] eqn:E.
  - apply (f_equal (@rev _)) in E. rewrite rev_involutive in E. contradiction.
  - cbn [app]. destruct (with_reset is_call x).
    + rewrite rev_app_distr, rev_involutive, <- app_assoc. reflexivity.
    + destruct b; rewrite <- ?app_assoc; reflexivity.
Qed.
Lemma finish_snoc : forall b a x, finish is_call b (a ++ [x]) =
  match with_reset is_call x with
  | Some x' => a ++ [x']
  | None => if b then a ++ [x; Reset] else a ++ [x]
  end.
Proof.
  intros. rewrite finish_app by discriminate. unfold finish. cbn [rev app].
  destruct (with_reset is_call x); [reflexivity|]. destruct b; reflexivity.
Qed.

Lemma reset_runs : forall c d, computes S c d -> runs emptied (c ++ [Reset]) d.
Proof.
  intros c d H C p s w sc HC. apply code_at_app in HC. destruct HC as (HC1 & HC2).
  apply code_at_cons in HC2. destruct HC2 as (HN & _).
  specialize (H C p s w sc HC1). destruct (d w) as [v w' | w']; [|exact H].
  exists []. split; [|reflexivity]. eapply steps_trans; [exact H|]. apply steps_one. unfold step. cbn [pc sk wd scs].
  rewrite HN. do 2 f_equal. rewrite app_length. cbn. lia.
Qed.

Lemma finish_runs : forall b c d, computes S c d -> runs any (finish is_call b c) d.
Proof.
  intros b c d H. unfold finish. destruct (rev c) as [|x l] eqn:E.
  - apply computes_runs; auto.
  - apply (f_equal (@rev _)) in E. rewrite rev_involutive in E. cbn [rev] in E.
    destruct (with_reset is_call x) as [x'|] eqn:Ex.
    + intros C p s w sc HC. subst c.
      specialize (H (rev l ++ [x]) 0%nat s w sc (code_at_self _)). destruct (d w) as [v w' | w'].
      * cbn [Nat.add] in H. destruct (reset_steps is_call _ _ _ Ex C p HC _ _ H eq_refl) as (s' & Hs).
        exists s'. unfold shift in Hs. cbn [pc sk wd scs] in Hs. rewrite Nat.add_0_r in Hs.
        rewrite app_length in *. split; [exact Hs | exact I].
      * pose proof (reset_fails is_call _ _ _ Ex C p HC _ _ H) as Hf. unfold shift in Hf.
        cbn [pc sk wd scs] in Hf. rewrite Nat.add_0_r in Hf. exact Hf.
    + destruct b; [|apply computes_runs; auto].
      eapply runs_weaken; [|apply reset_runs; exact H]. intros; exact I.
Qed.

(** ** Lists of values. *)
Lemma eval_list_app : forall A (d1 d2 : list (W S -> ev (W S) A)) w,
  eval_list S (d1 ++ d2) w =
  ebind (eval_list S d1 w) (fun x1 w1 => ebind (eval_list S d2 w1) (fun x2 w2 => EOk (x1 ++ x2) w2)).
Proof.
  induction d1 as [|d d1 IH]; intros d2 w; cbn [eval_list app ebind].
  - destruct (eval_list S d2 w); reflexivity.
  - destruct (d w) as [a w1 | w1]; cbn [ebind]; [|reflexivity]. rewrite IH.
    destruct (eval_list S d1 w1) as [x1 w2 | w2]; cbn [ebind]; [|reflexivity].
    destruct (eval_list S d2 w2) as [x2 w3 | w3]; reflexivity.
Qed.

Definition pushes (c : code) {A} (inj : A -> slot S) (ds : list (W S -> ev (W S) A)) : Prop :=
  forall C p s w sc, code_at C p c ->
  match eval_list S ds w with
  | EOk xs w' => steps S C (St S p s w sc) (St S (p + length c) (rev (map inj xs) ++ s) w' sc)
  | EErr w' => fails S C (St S p s w sc) w'
  end.

Lemma pushes_nil : forall A (inj : A -> slot S), pushes [] inj [].
Proof. intros A inj C p s w sc HC. cbn. rewrite Nat.add_0_r. constructor. Qed.
Lemma pushes_app : forall A (inj : A -> slot S) c1 c2 d1 d2, pushes c1 inj d1 -> pushes c2 inj d2 ->
  pushes (c1 ++ c2) inj (d1 ++ d2).
Proof.
  intros A inj c1 c2 d1 d2 H1 H2 C p s w sc HC. apply code_at_app in HC. destruct HC as (HC1 & HC2).
  specialize (H1 C p s w sc HC1). rewrite eval_list_app.
  destruct (eval_list S d1 w) as [x1 w1 | w1]; cbn [ebind]; [|exact H1].
  specialize (H2 C _ (rev (map inj x1) ++ s) w1 sc HC2).
  destruct (eval_list S d2 w1) as [x2 w2 | w2]; cbn [ebind].
  - rewrite map_app, rev_app_distr, <- app_assoc, app_length, Nat.add_assoc. eapply steps_trans; eauto.
  - eapply fails_trans; eauto.
Qed.
Lemma pushes_one : forall c d, computes S c d -> pushes c inl [d].
Proof.
  intros c d H C p s w sc HC. specialize (H C p s w sc HC). cbn [eval_list].
  destruct (d w) as [v w1 | w1]; cbn [ebind]; exact H.
Qed.
Lemma pushes_ref : forall c d, computes_ref S c d -> pushes c inr [d].
Proof.
  intros c d H C p s w sc HC. specialize (H C p s w sc HC). cbn [eval_list].
  destruct (d w) as [v w1 | w1]; cbn [ebind]; exact H.
Qed.
Lemma pushes_slot : forall c d,
  (forall C p s w sc, code_at C p c ->
   match d w with
   | EOk x w' => steps S C (St S p s w sc) (St S (p + length c) (x :: s) w' sc)
   | EErr w' => fails S C (St S p s w sc) w'
   end) -> pushes c (fun x => x) [d].
Proof.
  intros c d H C p s w sc HC. specialize (H C p s w sc HC). cbn [eval_list].
  destruct (d w) as [v w1 | w1]; cbn [ebind]; exact H.
Qed.

(** ** Expressions as compiled. *)
Variable foldk : bop -> const -> const -> fold.
Variable good : bop -> const -> const -> bool.
Hypothesis Hgood : forall o k1 k2 k, good o k1 k2 = true -> foldk o k1 k2 = FoldK k ->
  forall w, binop S o (kval S k1) (kval S k2) w = EOk (kval S k) w.
Hypothesis Hbool : forall b, vbool S (kval S (KBool b)) = Some b.

Notation comp_expr := (comp_expr foldk).
Notation ok_expr := (ok_expr foldk good).
Notation ok_args := (ok_args foldk good).

Lemma expr_ok : forall e c, ok_expr e = true -> comp_expr [] e = Some c -> computes S c (eval_expr S e).
Proof. exact (expr_correct S foldk good Hgood Hbool). Qed.
Lemma expr_ne : forall e c, comp_expr [] e = Some c -> c <> [].
Proof. intros e c E. apply (proj2 (shape_expr foldk e) c E). Qed.
Lemma target_ok : forall t c, ok_target foldk good t = true -> comp_target foldk t = Some c ->
  computes_ref S c (eval_target S t).
Proof.
  intros t c H E.
  exact (proj2 (proj2 (proj2 (proj2 (proj2 (proj2 (sim_all S foldk good Hgood Hbool)))))) t c H E).
Qed.
Lemma operand_ok : forall a c, ok_operand foldk good a = true -> comp_operand foldk a = Some c ->
  computes S c (eval_operand S a).
Proof. intros a c H E. exact (f_sim _ _ _ _ (proj1 (sim_all S foldk good Hgood Hbool) a c H E)). Qed.

(** ** Actions: assignments, increments and calls empty the stack. *)
Lemma targets_snoc : forall t a ts, exists ts' t' a',
  (forall c, comp_targets foldk (TgCons t a ts) = Some c -> exists c1 c2,
     comp_targets foldk ts' = Some c1 /\ comp_target foldk t' = Some c2 /\ c = c1 ++ c2 ++ [Asg a' false]) /\
  (ok_targets foldk good (TgCons t a ts) = true -> ok_targets foldk good ts' = true /\ ok_target foldk good t' = true) /\
  (forall v w, eval_targets S (TgCons t a ts) v w =
     ebind (eval_targets S ts' v w) (fun v1 w1 => ebind (eval_target S t' w1) (fun l w2 => assign S a' l v1 w2))).
Proof.
  intros t a ts. revert t a. induction ts as [|t2 a2 ts IH]; intros t a.
  - exists TgNil, t, a. split; [|split].
    + intros c E. rewrite comp_targets_eq in E. destruct (comp_target foldk t) as [ct|]; [|discriminate].
      cbn in E. inversion E; subst. exists [], ct. cbn. auto.
    + intros H. cbn in H. apply andb_true_iff in H. split; [reflexivity | tauto].
    + intros v w.
      change (eval_targets S (TgCons t a TgNil) v w) with
        (ebind (eval_target S t w) (fun l w1 => ebind (assign S a l v w1) (fun v2 w2 => EOk v2 w2))).
      change (eval_targets S TgNil v w) with (EOk (W := W S) v w).
      cbn [ebind]. destruct (eval_target S t w) as [l w1 | w1]; cbn [ebind]; [|reflexivity].
      destruct (assign S a l v w1); reflexivity.
  - destruct (IH t2 a2) as (ts' & t' & a' & H1 & H2 & H3).
    exists (TgCons t a ts'), t', a'. split; [|split].
    + intros c E. rewrite comp_targets_eq in E. destruct (comp_target foldk t) as [ct|] eqn:Et; [|discriminate].
      destruct (comp_targets foldk (TgCons t2 a2 ts)) as [cs|] eqn:Es; [|discriminate].
      inversion E; subst; clear E. destruct (H1 _ eq_refl) as (c1 & c2 & E1 & E2 & ->).
      exists (ct ++ [Asg a false] ++ c1), c2. rewrite comp_targets_eq, Et, E1. split; [reflexivity|].
      split; [exact E2|]. rewrite <- !app_assoc. reflexivity.
    + intros H. change (ok_target foldk good t && ok_targets foldk good (TgCons t2 a2 ts) = true) in H.
      apply andb_true_iff in H. destruct H as (Ha & Hb). destruct (H2 Hb) as (Hc & Hd).
      split; [|exact Hd]. change (ok_target foldk good t && ok_targets foldk good ts' = true).
      rewrite Ha, Hc. reflexivity.
    + intros v w.
      change (eval_targets S (TgCons t a (TgCons t2 a2 ts)) v w) with
        (ebind (eval_target S t w) (fun l w1 => ebind (assign S a l v w1) (fun v2 w2 =>
           eval_targets S (TgCons t2 a2 ts) v2 w2))).
      change (eval_targets S (TgCons t a ts') v w) with
        (ebind (eval_target S t w) (fun l w1 => ebind (assign S a l v w1) (fun v2 w2 =>
           eval_targets S ts' v2 w2))).
      destruct (eval_target S t w) as [l w1 | w1]; cbn [ebind]; [|reflexivity].
      destruct (assign S a l v w1) as [v2 w2 | w2]; cbn [ebind]; [|reflexivity]. apply H3.
Qed.

(** Same code as [finish], for the code of an operand or expression. *)
Definition acts (c : code) (d : W S -> ev (W S) (V S)) : Prop :=
  forall b, runs emptied (finish is_call b c) d.

Lemma incdec_acts : forall post inc ct (dt : W S -> ev (W S) (L S)), computes_ref S ct dt ->
  acts (ct ++ [IncDec post inc false]) (fun w => ebind (dt w) (fun l w1 => incdec S post inc l w1)).
Proof.
  intros post inc ct dt H b C p s w sc HC. rewrite finish_snoc in *. cbn [with_reset] in *.
  apply code_at_app in HC. destruct HC as (HC1 & HC2). apply code_at_cons in HC2. destruct HC2 as (HN & _).
  specialize (H C p s w sc HC1). destruct (dt w) as [l w1 | w1]; cbn [ebind]; [|exact H].
  assert (Es : step S C (St S (p + length ct) (inr l :: s) w1 sc) =
    of_ev S (incdec S post inc l w1) (fun v w' => pushed S true (p + length ct) (inl v) s w' sc)).
  { unfold step. cbn [pc sk wd scs]. rewrite HN. reflexivity. }
  destruct (incdec S post inc l w1) as [v w2 | w2]; cbn [of_ev] in Es.
  - exists []. split; [|reflexivity]. eapply steps_trans; [exact H|]. apply steps_one. rewrite Es.
    unfold pushed. do 2 f_equal. rewrite app_length. cbn [length]. lia.
  - eapply fails_trans; [exact H|]. apply fails_now; auto.
Qed.
Lemma prim_acts : forall q ca ds, is_call q = true -> pushes ca (fun x => x) ds ->
  acts (ca ++ [Prim q (length ds) false]) (fun w => ebind (eval_list S ds w) (fun xs w1 => prim S q xs w1)).
Proof.
  intros q ca ds Hq H b C p s w sc HC. rewrite finish_snoc in *. cbn [with_reset] in *. rewrite Hq in *.
  apply code_at_app in HC. destruct HC as (HC1 & HC2). apply code_at_cons in HC2. destruct HC2 as (HN & _).
  specialize (H C p s w sc HC1). destruct (eval_list S ds w) as [xs w1 | w1] eqn:Ev; cbn [ebind]; [|exact H].
  apply eval_list_len in Ev. rewrite map_id in H.
  assert (Es : step S C (St S (p + length ca) (rev xs ++ s) w1 sc) =
    of_ev S (prim S q xs w1) (fun v w' => pushed S true (p + length ca) (inl v) s w' sc)).
  { unfold step. cbn [pc sk wd scs]. rewrite HN, <- Ev, take_rev, app_nil_r. reflexivity. }
  destruct (prim S q xs w1) as [v w2 | w2]; cbn [of_ev] in Es.
  - exists []. split; [|reflexivity]. eapply steps_trans; [exact H|]. apply steps_one. rewrite Es.
    unfold pushed. do 2 f_equal. rewrite app_length. cbn [length]. lia.
  - eapply fails_trans; [exact H|]. apply fails_now; auto.
Qed.
Lemma asg_acts : forall a c0 d0 ct (dt : W S -> ev (W S) (L S)), computes S c0 d0 -> computes_ref S ct dt ->
  acts (c0 ++ ct ++ [Asg a false])
    (fun w => ebind (d0 w) (fun v w1 => ebind (dt w1) (fun l w2 => assign S a l v w2))).
Proof.
  intros a c0 d0 ct dt H0 Ht b C p s w sc HC. rewrite app_assoc in *. rewrite finish_snoc in *. cbn [with_reset] in *.
  apply code_at_app in HC. destruct HC as (HC1 & HC2). apply code_at_cons in HC2. destruct HC2 as (HN & _).
  apply code_at_app in HC1. destruct HC1 as (HC0 & HC1).
  specialize (H0 C p s w sc HC0). destruct (d0 w) as [v w1 | w1]; cbn [ebind]; [|exact H0].
  specialize (Ht C _ (inl v :: s) w1 sc HC1). destruct (dt w1) as [l w2 | w2]; cbn [ebind].
  2:{ eapply fails_trans; eauto. }
  rewrite app_length, Nat.add_assoc in HN.
  assert (Es : step S C (St S (p + length c0 + length ct) (inr l :: inl v :: s) w2 sc) =
    of_ev S (assign S a l v w2) (fun v w' => pushed S true (p + length c0 + length ct) (inl v) s w' sc)).
  { unfold step. cbn [pc sk wd scs]. rewrite HN. reflexivity. }
  destruct (assign S a l v w2) as [v3 w3 | w3]; cbn [of_ev] in Es.
  - exists []. split; [|reflexivity]. eapply steps_trans; [exact H0|]. eapply steps_trans; [exact Ht|].
    apply steps_one. rewrite Es. unfold pushed. do 2 f_equal. rewrite !app_length. cbn [length]. lia.
  - eapply fails_trans; [exact H0|]. eapply fails_trans; [exact Ht|]. apply fails_now; auto.
Qed.

Lemma bin_code_last : forall o c c', ExprShape.bin_code foldk o c = Some c' ->
  exists a x, c' = a ++ [x] /\ with_reset is_call x = None.
Proof.
  intros o c c' E. unfold ExprShape.bin_code in E.
  destruct (le_lt_dec 2 (length c)) as [H2 | H2].
  - destruct (snoc2_case _ _ H2) as (l & x & y & ->).
    destruct (bop_inst_dec o) as [-> | Ho].
    + rewrite optimize_inst in E. inversion E; subst. eexists (l ++ [x]), _. split; [reflexivity|]. reflexivity.
    + rewrite optimize_pair in E by auto. unfold opt_pair in E.
      destruct (is_const x) as [k1|], (is_const y) as [k2|];
        [destruct (foldk o k1 k2); [discriminate | discriminate |
           inversion E; subst; eexists _, _; split; [reflexivity | reflexivity]] | | |];
        destruct (get_register x) as [(r1, f1)|], (get_register y) as [(r2, f2)|];
        inversion E; subst; eexists _, _; split; reflexivity.
  - assert (E0 : ExprModel.optimize foldk o c = OptNone).
    { destruct c as [|i [|? ?]]; [| |cbn in H2; lia]; reflexivity. }
    rewrite E0 in E. inversion E; subst. eexists _, _; split; reflexivity.
Qed.
Lemma tree_of_node : forall A (hd : A) o a tl, exists o' l r, tree_of hd ((o, a) :: tl) = Node o' l r.
Proof.
  intros A hd o a tl. unfold tree_of. cbn [fold_left add_op fst snd].
  assert (H : forall tl t, (exists o' l r, t = Node o' l r) ->
    exists o' l (r : tree A), fold_left (fun t p => add_op t (fst p) (snd p)) tl t = Node o' l r).
  { induction tl0 as [|(o1, a1) tl0 IH]; intros t (o' & l & r & ->); [cbn; eauto|].
    cbn [fold_left]. apply IH. cbn [add_op fst snd]. destruct (binds o' <? binds o1)%nat; eauto. }
  apply H. eauto.
Qed.
Lemma operators_last : forall e c, operators e = true -> comp_expr [] e = Some c ->
  exists a x, c = a ++ [x] /\ with_reset is_call x = None.
Proof.
  intros [[|t0 a0 ts0] hd [|o a tl] [|e1 e2]] c H E; try discriminate.
  destruct (comp_expr_inv _ _ _ _ _ _ E) as (cts & chd & ctl & t & ct & E1 & E2 & E3 & E4 & E5 & ->).
  inversion E1; subst. inversion E5; subst. rewrite !app_nil_r.
  destruct (logic_code_shape t) as [(Hm & El) | (Hm & c' & k & El)]; rewrite El.
  - rewrite comp_ops_eq in E3. destruct (comp_operand foldk a) as [ca|]; [|discriminate].
    destruct (comp_ops foldk tl) as [cl|]; [|discriminate]. inversion E3; subst.
    destruct (tree_of_node _ chd o ca cl) as (o' & l & r & Et). rewrite Et in E4. cbn [ptree] in E4.
    destruct (ptree foldk l) as [cl1|]; [|discriminate]. destruct (ptree foldk r) as [cr|]; [|discriminate].
    destruct o'; try (apply bin_code_last in E4; exact E4); inversion E4; subst;
      rewrite !any_mark_app in Hm; cbn in Hm; rewrite !orb_true_r in Hm; discriminate.
  - exists (c' ++ [Jmp NoMark 2]), (LoadK k). rewrite <- app_assoc. split; reflexivity.
Qed.

Lemma action_ok : (forall a, action_operand is_call a = true -> forall c, ok_operand foldk good a = true ->
     comp_operand foldk a = Some c -> acts c (eval_operand S a)) /\
  (forall e, action is_call e = true -> forall c, ok_expr e = true ->
     comp_expr [] e = Some c -> acts c (eval_expr S e)) /\
  (forall es : exprs, True) /\ (forall os : ops, True) /\ (forall tn : tern, True) /\
  (forall ts : targets, True) /\ (forall t : target, True).
Proof.
  apply syntax_ind; try exact I; try (intros; exact I); try (intros; discriminate).
  - intros p i t _ _ c Hok E. rewrite comp_incdec_eq in E.
    destruct (comp_target foldk t) as [ct|] eqn:Et; [|discriminate]. inversion E; subst.
    exact (incdec_acts p i ct _ (target_ok _ _ Hok Et)).
  - intros p es _ Ha c Hok E. rewrite comp_prim_eq in E.
    destruct (comp_args foldk es) as [ca|] eqn:Et; [|discriminate]. inversion E; subst.
    rewrite <- args_den_len with (S := S). apply (prim_acts p ca _ Ha).
    pose proof (proj1 (proj2 (proj2 (sim_all S foldk good Hgood Hbool))) es ca Hok Et) as H.
    intros C q s w sc HC. specialize (H C q s w sc HC).
    destruct (eval_list S (args_den S es) w); [rewrite map_id|]; exact H.
  - intros e IH Ha c Hok E. exact (IH Ha c Hok E).
  - intros ts _ hd IH tl _ tn _ Ha c Hok E. destruct ts as [|t a ts].
    + destruct tl; [|discriminate]. destruct tn; [|discriminate].
      destruct (comp_expr_inv _ _ _ _ _ _ E) as (cts & chd & ctl & t & ct & E1 & E2 & E3 & E4 & E5 & Ec).
      inversion E1; subst cts. inversion E3; subst ctl. inversion E5; subst ct. inversion E4; subst t.
      assert (Hn : nomark chd) by apply (shape_operand foldk hd chd E2).
      assert (El : logic_code chd = chd).
      { destruct (logic_code_shape chd) as [(_ & El) | (Hm & _)]; [exact El|].
        rewrite !any_mark_nomark in Hm by auto. discriminate. }
      rewrite El, !app_nil_r in Ec. subst c.
      assert (Hok' : ok_operand foldk good hd = true) by exact Hok.
      intros b. eapply runs_ext; [|exact (IH Ha chd Hok' E2 b)].
      intros w. change (eval_expr S (Expr TgNil hd ONil TNone) w) with
        (ebind (eval_operand S hd w) (fun v w1 => EOk v w1)).
      destruct (eval_operand S hd w); cbn [ebind]; reflexivity.
    + destruct (targets_snoc t a ts) as (ts' & t' & a' & T1 & T2 & T3).
      destruct (comp_expr_inv _ _ _ _ _ _ E) as (cts & chd & ctl & tt & ct & E1 & E2 & E3 & E4 & E5 & Ec).
      destruct (T1 _ E1) as (c1 & c2 & F1 & F2 & ->).
      assert (E' : comp_expr [] (Expr ts' hd tl tn) = Some (logic_code tt ++ ct ++ c1)).
      { rewrite comp_expr_parts in E |- *;
          [| apply shape_operand | apply shape_ops | apply shape_tern | left; reflexivity
           | apply shape_operand | apply shape_ops | apply shape_tern | left; reflexivity].
        rewrite E1 in E. rewrite F1. rewrite E2, E3, E4, E5 in *. cbn [option_map app] in *. reflexivity. }
      assert (Hok1 : ok_targets foldk good (TgCons t a ts) = true /\ ok_expr (Expr ts' hd tl tn) = true /\
                     ok_target foldk good t' = true).
      { set (Z0 := ok_tree foldk good (tree_of (Info (jumpy hd) (ternish hd) (type_leaf hd)
            (const_operand foldk hd) (ok_operand foldk good hd)) (ok_ops foldk good tl))).
        change (ok_targets foldk good (TgCons t a ts) && ok_tern foldk good tn && Z0 = true) in Hok.
        rewrite !andb_true_iff in Hok. destruct Hok as ((Ok1 & Ok2) & Ok3).
        destruct (T2 Ok1) as (Ok4 & Ok5). split; [exact Ok1|]. split; [|exact Ok5].
        change (ok_targets foldk good ts' && ok_tern foldk good tn && Z0 = true). rewrite Ok4, Ok2, Ok3. reflexivity. }
      destruct Hok1 as (_ & Ok2 & Ok3).
      subst c. rewrite !app_assoc, <- (app_assoc (_ ++ ct) c1), <- (app_assoc _ ct). rewrite <- !app_assoc.
      rewrite (app_assoc (logic_code tt)), (app_assoc (logic_code tt ++ ct)), <- (app_assoc (logic_code tt) ct).
      intros b. eapply runs_ext; [|exact (asg_acts a' _ _ _ _ (expr_ok _ _ Ok2 E') (target_ok _ _ Ok3 F2) b)].
      intros w. cbn beta.
      assert (Ev : forall ts0, eval_expr S (Expr ts0 hd tl tn) w =
        ebind (ebind (eval_tree S (tree_of (eval_operand S hd, type_leaf hd) (ops_den S tl)) w) (fun v w1 => eval_tern S tn v w1))
          (fun v2 w2 => eval_targets S ts0 v2 w2)).
      { intros ts0. change (eval_expr S (Expr ts0 hd tl tn) w) with
          (ebind (eval_tree S (tree_of (eval_operand S hd, type_leaf hd) (ops_den S tl)) w) (fun v w1 =>
           ebind (eval_tern S tn v w1) (fun v2 w2 => eval_targets S ts0 v2 w2))).
        destruct (eval_tree S _ w); reflexivity. }
      rewrite !Ev. destruct (ebind (eval_tree S _ w) _) as [v2 w2 | w2]; cbn [ebind]; [|reflexivity].
      rewrite T3. destruct (eval_targets S ts' v2 w2) as [v3 w3 | w3]; cbn [ebind]; [|reflexivity].
      destruct (eval_target S t' w3) as [l w4 | w4]; cbn [ebind]; [|reflexivity].
      destruct (assign S a' l v3 w4); reflexivity.
Qed.
Lemma action_acts : forall e c, action is_call e = true -> ok_expr e = true -> comp_expr [] e = Some c ->
  acts c (eval_expr S e).
Proof. intros e c Ha Hok E. exact (proj1 (proj2 action_ok) e Ha c Hok E). Qed.

(** ** Sequences. *)
Lemma seq_nonempty : forall e es c, comp_seq foldk (ECons e es) = Some c -> c <> [].
Proof.
  intros e es c E. cbn [comp_seq] in E. destruct (comp_expr [] e) as [c3|] eqn:E3; [|discriminate].
  destruct (comp_seq foldk es) as [c4|]; [|discriminate]. inversion E; subst.
  apply expr_ne in E3. intros H. apply app_eq_nil in H. tauto.
Qed.
Lemma seq_any : forall b e es c, ok_args (ECons e es) = true -> comp_seq foldk (ECons e es) = Some c ->
  runs (if tidy_seq is_call b (ECons e es) then emptied else any) (finish is_call b c) (exec_seq S (ECons e es)).
Proof.
  intros b e es. revert e. induction es as [|e' es IH]; intros e c Hok E.
  - change (ok_args (ECons e ENil)) with (ok_expr e && true) in Hok. rewrite andb_true_r in Hok.
    cbn [comp_seq] in E. destruct (comp_expr [] e) as [c1|] eqn:E1; [|discriminate].
    inversion E; subst; clear E. rewrite app_nil_r.
    apply (runs_ext _ _ _ (eval_expr S e)).
    { intros w. unfold exec_seq. cbn [dens eval_list]. destruct (eval_expr S e w); cbn [ebind]; reflexivity. }
    pose proof (expr_ok _ _ Hok E1) as H1. cbn [tidy_seq].
    destruct (action is_call e) eqn:Ha; cbn [orb].
    + apply (action_acts e c1 Ha Hok E1).
    + destruct b; cbn [andb]; [|apply finish_runs; auto].
      destruct (operators e) eqn:Ho; [|apply finish_runs; auto].
      destruct (operators_last _ _ Ho E1) as (a & x & -> & Hx). rewrite finish_snoc, Hx.
      replace (a ++ [x; Reset]) with ((a ++ [x]) ++ [Reset]) by (rewrite <- app_assoc; reflexivity).
      apply reset_runs; auto.
  - change (ok_args (ECons e (ECons e' es))) with (ok_expr e && ok_args (ECons e' es)) in Hok.
    apply andb_true_iff in Hok. destruct Hok as (Ok1 & Ok2).
    change (comp_seq foldk (ECons e (ECons e' es))) with
      (match comp_expr [] e, comp_seq foldk (ECons e' es) with
       | Some c, Some cs => Some (c ++ cs) | _, _ => None end) in E.
    destruct (comp_expr [] e) as [c1|] eqn:E1; [|discriminate].
    destruct (comp_seq foldk (ECons e' es)) as [c2|] eqn:E2; [|discriminate]. inversion E; subst; clear E.
    pose proof (expr_ok _ _ Ok1 E1) as H1.
    rewrite finish_app by (eapply seq_nonempty; eauto).
    change (tidy_seq is_call b (ECons e (ECons e' es))) with (tidy_seq is_call b (ECons e' es)).
    eapply runs_ext; [|eapply (runs_seq any _ _ _ _ _ _ _ _); [|apply computes_runs; exact H1 | apply (IH _ _ Ok2 E2)]].
    + intros w. unfold exec_seq. cbn [dens eval_list]. destruct (eval_expr S e w) as [v w1 | w1]; cbn [ebind]; [|reflexivity].
      destruct (eval_expr S e' w1) as [v2 w2 | w2]; cbn [ebind]; [|reflexivity].
      destruct (eval_list S (dens S es) w2) as [v3 w3 | w3]; cbn [ebind]; reflexivity.
    + intros s1 s2 s3 _. destruct (tidy_seq _ _ _); cbn; auto.
Qed.
Lemma seq_ok : forall b es c, ok_args es = true -> comp_seq foldk es = Some c ->
  runs (td (tidy_seq is_call b es)) (finish is_call b c) (exec_seq S es).
Proof.
  intros b [|e es] c Hok E.
  - inversion E; subst. cbn [finish rev]. eapply runs_weaken; [|apply (runs_nil _ tt)].
    intros s s' H _ Hs. rewrite H. exact Hs.
  - eapply runs_weaken; [|apply (seq_any b e es c Hok E)].
    intros s s' H Ht _. rewrite Ht in H. exact H.
Qed.

Lemma var_ok : forall t x oe c, ok_opt foldk good x oe = true -> comp_var foldk is_call x oe = Some c ->
  runs (td t) c (exec_var S x oe).
Proof.
  intros t x [e|] c Hok E; cbn [comp_var exec_var ok_opt] in *.
  - destruct (comp_expr [] (var_expr x e)) as [c1|] eqn:E1; [|discriminate]. inversion E; subst.
    assert (Ha : action is_call (var_expr x e) = true) by (destruct e; reflexivity).
    eapply runs_weaken; [|eapply runs_ext; [|exact (action_acts _ _ Ha Hok E1 false)]].
    + intros s s' H _ _. exact H.
    + intros w. unfold exec_var. destruct (eval_expr S (var_expr x e) w); cbn [ebind]; reflexivity.
  - inversion E; subst. eapply runs_weaken; [|apply (runs_nil _ tt)].
    intros s s' H _ Hs. rewrite H. exact Hs.
Qed.
Lemma td_trans : forall t1 t2 t s1 s2 s3, (t = true -> t1 = true) -> (t = true -> t2 = true) ->
  td t1 s1 s2 -> td t2 s2 s3 -> td t s1 s3.
Proof. unfold td. intros. auto. Qed.
Lemma vars_ok : forall t vs c, ok_vars foldk good vs = true -> comp_vars foldk is_call vs = Some c ->
  runs (td t) c (exec_vars S vs).
Proof.
  induction vs as [|(x, oe) vs IH]; intros c Hok E; cbn [comp_vars exec_vars] in *.
  - inversion E; subst. eapply runs_weaken; [|apply (runs_nil _ tt)].
    intros s s' H _ Hs. rewrite H. exact Hs.
  - assert (Hok2 : ok_opt foldk good x oe = true /\ ok_vars foldk good vs = true).
    { cbn [ok_vars] in Hok. destruct oe; cbn [ok_opt]; [apply andb_true_iff in Hok; auto | auto]. }
    destruct Hok2 as (Ok1 & Ok2).
    destruct (comp_var foldk is_call x oe) as [c1|] eqn:E1; [|discriminate].
    destruct (comp_vars foldk is_call vs) as [c2|] eqn:E2; [|discriminate]. inversion E; subst.
    eapply runs_seq; [|eapply var_ok; eauto | eapply IH; eauto].
    intros s1 s2 s3. apply td_trans; auto.
Qed.

(** ** Multiple assignment. *)
Lemma codes_pushes : forall rs cs, ok_args rs = true -> codes foldk rs = Some cs ->
  pushes (concat (rev cs)) inl (rev (dens S rs)) /\ length cs = length (dens S rs).
Proof.
  induction rs as [|e rs IH]; intros cs Hok E.
  - inversion E; subst. split; [apply pushes_nil | reflexivity].
  - change (ok_args (ECons e rs)) with (ok_expr e && ok_args rs) in Hok. apply andb_true_iff in Hok.
    destruct Hok as (Ok1 & Ok2). cbn [codes] in E.
    destruct (comp_expr [] e) as [c1|] eqn:E1; [|discriminate].
    destruct (codes foldk rs) as [c2|] eqn:E2; [|discriminate]. inversion E; subst; clear E.
    destruct (IH c2 Ok2 eq_refl) as (H & L). cbn [rev dens length]. split; [|lia].
    rewrite concat_app. apply pushes_app; [exact H|]. cbn [concat]. rewrite app_nil_r.
    apply pushes_one. exact (expr_ok _ _ Ok1 E1).
Qed.
Lemma undef_pushes : forall n, pushes (concat (repeat [LoadUndef] n)) inl (repeat (fun w => EOk (undefv S) w) n).
Proof.
  induction n as [|n IH]; [apply pushes_nil|]. cbn [repeat concat].
  apply (pushes_app _ inl [LoadUndef] _ [fun w => EOk (undefv S) w] _); [|exact IH]. apply pushes_one. intros C p s w sc HC.
  apply code_at_cons in HC. destruct HC as (HN & _). apply steps_one. unfold step. cbn [pc sk wd scs].
  rewrite HN. unfold pushed. cbn [length]. do 2 f_equal. lia.
Qed.
Lemma eval_undefs : forall n w, eval_list S (repeat (fun w0 => EOk (undefv S) w0) n) w = EOk (repeat (undefv S) n) w.
Proof. induction n as [|n IH]; intros w; [reflexivity|]. cbn [repeat eval_list ebind]. rewrite IH. reflexivity. Qed.

Lemma ltargets_pushes : forall ls c, forallb (ok_target foldk good) ls = true ->
  comp_ltargets foldk ls = Some c -> pushes c inr (map (eval_target S) ls).
Proof.
  induction ls as [|t ls IH]; intros c Hok E; cbn [comp_ltargets map forallb] in *.
  - inversion E; subst. apply pushes_nil.
  - apply andb_true_iff in Hok. destruct Hok as (Ok1 & Ok2).
    destruct (comp_target foldk t) as [c1|] eqn:E1; [|discriminate].
    destruct (comp_ltargets foldk ls) as [c2|] eqn:E2; [|discriminate]. inversion E; subst.
    change (eval_target S t :: map (eval_target S) ls) with ([eval_target S t] ++ map (eval_target S) ls).
    apply pushes_app; [|apply IH; auto]. apply pushes_ref. apply target_ok; auto.
Qed.

Lemma combine_app_same : forall A B (a1 a2 : list A) (b1 b2 : list B), length a1 = length b1 ->
  combine (a1 ++ a2) (b1 ++ b2) = combine a1 b1 ++ combine a2 b2.
Proof.
  induction a1 as [|x a1 IH]; intros a2 [|y b1] b2 H; try discriminate; [reflexivity|].
  cbn. f_equal. apply IH. cbn in H. lia.
Qed.
Lemma combine_rev : forall A B (a : list A) (b : list B), length a = length b ->
  rev (combine a b) = combine (rev a) (rev b).
Proof.
  induction a as [|x a IH]; intros [|y b] H; try discriminate; [reflexivity|].
  cbn in *. rewrite combine_app_same by (rewrite !rev_length; lia). rewrite IH by lia. reflexivity.
Qed.
Lemma combine_firstn : forall A B (a : list A) (b : list B), combine a b = combine a (firstn (length a) b).
Proof. induction a as [|x a IH]; intros [|y b]; try reflexivity. cbn. f_equal. apply IH. Qed.

Lemma store_assign : forall locs vals w, length locs = length vals ->
  store_all S (map inr locs) (map inl vals) w = Some (assign_all S (combine locs vals) w).
Proof.
  induction locs as [|l locs IH]; intros [|v vals] w H; try discriminate; [reflexivity|].
  cbn [map store_all combine assign_all]. destruct (assign S A_SET l v w) as [v' w' | w']; cbn [ebind]; [|reflexivity].
  apply IH. cbn in H. lia.
Qed.

Lemma rev_repeat : forall A (x : A) n, rev (repeat x n) = repeat x n.
Proof.
  induction n as [|n IH]; [reflexivity|]. cbn [repeat rev]. rewrite IH, <- repeat_cons. reflexivity.
Qed.
Lemma multi_ok : forall ls rs c, forallb (ok_target foldk good) ls && ok_args rs = true ->
  comp_multi foldk is_call ls rs = Some c -> runs emptied c (exec_multi S ls rs).
Proof.
  intros ls rs c Hok E. apply andb_true_iff in Hok. destruct Hok as (Ok1 & Ok2).
  unfold comp_multi in E. destruct (codes foldk rs) as [cs|] eqn:E1; [|discriminate].
  destruct (comp_ltargets foldk ls) as [ct|] eqn:E2; [|discriminate].
  assert (E3 : c = concat (rev (cs ++ repeat [LoadUndef] (length ls - length cs))) ++ ct ++ [Store (length ls) true]).
  { destruct cs; [discriminate|]. destruct (_ || _ || _); [discriminate|]. inversion E; reflexivity. }
  clear E. subst c.
  destruct (codes_pushes rs cs Ok2 E1) as (HR & HL).
  pose proof (ltargets_pushes ls ct Ok1 E2) as HT.
  set (n := length ls) in *.
  assert (HP : pushes (concat (rev (cs ++ repeat [LoadUndef] (n - length cs)))) inl
                 (repeat (fun w => EOk (undefv S) w) (n - length cs) ++ rev (dens S rs))).
  { rewrite rev_app_distr, concat_app. apply pushes_app; [|exact HR].
    rewrite rev_repeat. apply undef_pushes. }
  intros C p s w sc HC. apply code_at_app in HC. destruct HC as (HC1 & HC2).
  apply code_at_app in HC2. destruct HC2 as (HC2 & HC3). apply code_at_cons in HC3. destruct HC3 as (HN & _).
  specialize (HP C p s w sc HC1). rewrite eval_list_app, eval_undefs in HP. cbn [ebind] in HP.
  unfold exec_multi. destruct (eval_list S (rev (dens S rs)) w) as [vs w1 | w1] eqn:Ev; cbn [ebind] in *; [|exact HP].
  apply eval_list_len in Ev. rewrite rev_length in Ev.
  set (all := repeat (undefv S) (n - length cs) ++ vs) in *.
  specialize (HT C _ (rev (map inl all) ++ s) w1 sc HC2).
  destruct (eval_list S (map (eval_target S) ls) w1) as [locs w2 | w2] eqn:El; cbn [ebind].
  2:{ eapply fails_trans; eauto. }
  apply eval_list_len in El. rewrite map_length in El. fold n in El.
  set (vals := firstn n (rev vs ++ repeat (undefv S) n)).
  assert (Hv : length vals = n).
  { unfold vals. rewrite firstn_length, app_length, rev_length, repeat_length. lia. }
  assert (Hall : exists pre, all = pre ++ rev vals).
  { exists (rev (skipn n (rev all))). unfold vals, all. rewrite rev_app_distr.
    rewrite rev_repeat.
    assert (Ef : firstn n (rev vs ++ repeat (undefv S) n) =
                 firstn n (rev vs ++ repeat (undefv S) (n - length cs))).
    { rewrite !firstn_app. f_equal. rewrite rev_length, Ev, <- HL.
      assert (Hfr : forall a b (x : V S), firstn a (repeat x (a + b)) = repeat x a).
      { intros a b x. induction a as [|a IHa]; [reflexivity|]. cbn. f_equal. exact IHa. }
      assert (Hfr2 : forall a (x : V S), firstn a (repeat x a) = repeat x a).
      { intros a x. rewrite <- (Nat.add_0_r a) at 2. apply Hfr. }
      rewrite Hfr2. destruct (le_lt_dec (length cs) n) as [Hle | Hgt].
      - replace n with ((n - length cs) + length cs)%nat at 2 by lia. apply Hfr.
      - replace (n - length cs)%nat with 0%nat by lia. reflexivity. }
    rewrite Ef. set (q := rev vs ++ repeat (undefv S) (n - length cs)).
    rewrite <- rev_app_distr. rewrite firstn_skipn. unfold q. rewrite rev_app_distr, rev_involutive, rev_repeat. reflexivity. }
  destruct Hall as (pre & Hall).
  assert (Es : step S C (St S (p + length (concat (rev (cs ++ repeat [LoadUndef] (n - length cs)))) + length ct)
                 (rev (map inr locs) ++ rev (map inl all) ++ s) w2 sc) =
               of_ev S (assign_all S (rev (combine locs (rev vs ++ repeat (undefv S) n))) w2)
                 (fun _ w' => Next S (St S (Datatypes.S (p + length (concat (rev (cs ++ repeat [LoadUndef] (n - length cs)))) + length ct)) [] w' sc))).
  { unfold step. cbn [pc sk wd scs]. rewrite HN.
    replace n with (length (map (@inr (V S) (L S)) locs)) at 1 by (rewrite map_length; exact El).
    rewrite take_rev, app_nil_r.
    rewrite Hall, map_app, rev_app_distr, <- app_assoc.
    replace n with (length (map (@inl (V S) (L S)) (rev vals))) at 1 by (rewrite map_length, rev_length; exact Hv).
    rewrite take_rev, app_nil_r, <- map_rev, store_assign by (rewrite !rev_length; lia).
    rewrite (combine_firstn _ _ locs (rev vs ++ _)), El. fold vals. rewrite combine_rev by lia. reflexivity. }
  destruct (assign_all S _ w2) as [u w3 | w3]; cbn [of_ev] in Es.
  - exists []. split; [|reflexivity]. eapply steps_trans; [exact HP|]. eapply steps_trans; [exact HT|]. apply steps_one. eapply eq_trans; [exact Es|].
    do 2 f_equal. rewrite !app_length. cbn [length]. lia.
  - eapply fails_trans; [exact HP|]. eapply fails_trans; [exact HT|]. apply fails_now. exact Es.
Qed.

(** ** Return. *)
Lemma as_ret_ok : forall e c, ok_expr e = true -> comp_expr [] e = Some c ->
  pushes (as_ret c) (fun x => x)
    [match bare e with
     | Some (Global n) => fun w => EOk (inr (lvar S (Global n))) w
     | _ => fun w => ebind (eval_expr S e w) (fun v w1 => EOk (inl v) w1)
     end].
Proof.
  intros e c Hok E. apply pushes_slot.
  pose proof (proj1 (proj2 (sim_all S foldk good Hgood Hbool)) e c Hok E) as F.
  pose proof (f_bare _ _ _ _ F) as FB. change (bare_operand (AParen e)) with (bare e) in FB.
  assert (Hplain : forall C p s w sc, code_at C p c ->
     match ebind (eval_expr S e w) (fun v w1 => EOk (inl v) w1) with
     | EOk x w' => steps S C (St S p s w sc) (St S (p + length c) ((x : slot S) :: s) w' sc)
     | EErr w' => fails S C (St S p s w sc) w'
     end).
  { intros C p s w sc HC. pose proof (expr_ok _ _ Hok E C p s w sc HC) as H.
    destruct (eval_expr S e w); exact H. }
  destruct (bare e) as [[n|n|n]|] eqn:B.
  1,2: assert (Ec : c = as_ret c) by (rewrite (proj2 (FB _) eq_refl); reflexivity); rewrite <- Ec; exact Hplain.
  - rewrite (proj2 (FB _) eq_refl). cbn [as_ret]. intros C p s w sc HC.
    apply code_at_cons in HC. destruct HC as (HN & _). apply steps_one. unfold step. cbn [pc sk wd scs].
    rewrite HN. unfold pushed. cbn [length]. do 2 f_equal. lia.
  - assert (Ec : as_ret c = c).
    { destruct c as [|[] [|? ?]]; try reflexivity; destruct x; try reflexivity.
      pose proof (proj1 (FB _) eq_refl). discriminate. }
    rewrite Ec. exact Hplain.
Qed.
Lemma rets_ok : forall es c, ok_args es = true -> comp_rets foldk es = Some c ->
  pushes c (fun x => x) (rets_den S es).
Proof.
  induction es as [|e es IH]; intros c Hok E.
  - inversion E; subst. apply pushes_nil.
  - change (ok_args (ECons e es)) with (ok_expr e && ok_args es) in Hok. apply andb_true_iff in Hok.
    destruct Hok as (Ok1 & Ok2). cbn [comp_rets] in E.
    destruct (comp_expr [] e) as [c1|] eqn:E1; [|discriminate].
    destruct (comp_rets foldk es) as [c2|] eqn:E2; [|discriminate]. inversion E; subst; clear E.
    cbn [rets_den]. match goal with |- pushes _ _ (?d :: ?l) => change (d :: l) with ([d] ++ l) end.
    apply pushes_app; [apply as_ret_ok; auto | apply IH; auto].
Qed.

(** ** How code ends. *)
Definition outc (C : code) (st0 : st S) (t : bool) (sc : list Z) (q b k : nat) (bok kok : bool) (r : out S) : Prop :=
  match r with
  | ONorm _ w' => exists s', steps S C st0 (St S q s' w' sc) /\ td t (sk S st0) s'
  | OBrk _ w' => bok = true /\ exists s', steps S C st0 (St S b s' w' sc) /\ td t (sk S st0) s'
  | OCont _ w' => kok = true /\ exists s', steps S C st0 (St S k s' w' sc) /\ td t (sk S st0) s'
  | ORet _ vs w' => exists s2 g, steps S C st0 s2 /\
      step S C s2 = Done S (leave_all S sc w') (rev vs ++ g) /\ td t (sk S st0) g
  | OErr _ w' => fails S C st0 w'
  end.

Lemma outc_steps : forall C s0 s1 t sc q b k bok kok r, steps S C s0 s1 ->
  td t (sk S s0) (sk S s1) -> outc C s1 t sc q b k bok kok r -> outc C s0 t sc q b k bok kok r.
Proof.
  intros C s0 s1 t sc q b k bok kok r H Ht Ho.
  assert (Hn : forall q w', (exists s', steps S C s1 (St S q s' w' sc) /\ td t (sk S s1) s') ->
                            (exists s', steps S C s0 (St S q s' w' sc) /\ td t (sk S s0) s')).
  { intros q0 w' (s' & H1 & H2). exists s'. split; [eapply steps_trans; eauto|]. unfold td in *; auto. }
  destruct r; cbn [outc] in *; auto.
  - destruct Ho; auto.
  - destruct Ho; auto.
  - destruct Ho as (s2 & g & H1 & H2 & H3). exists s2, g. split; [eapply steps_trans; eauto|].
    split; [auto|]. unfold td in *; auto.
  - eapply fails_trans; eauto.
Qed.
Lemma outc_weaken : forall C s0 t t' sc q b k bok kok bok' kok' r,
  (t' = true -> t = true) -> (bok = true -> bok' = true) -> (kok = true -> kok' = true) ->
  outc C s0 t sc q b k bok kok r -> outc C s0 t' sc q b k bok' kok' r.
Proof.
  intros C s0 t t' sc q b k bok kok bok' kok' r H1 H2 H3 Ho.
  destruct r; cbn [outc] in *; auto.
  - destruct Ho as (s' & Ha & Hb). exists s'. unfold td in *. auto.
  - destruct Ho as (Hz & s' & Ha & Hb). split; auto. exists s'. unfold td in *. auto.
  - destruct Ho as (Hz & s' & Ha & Hb). split; auto. exists s'. unfold td in *. auto.
  - destruct Ho as (s' & g & Ha & Hb & Hc). exists s', g. unfold td in *. auto.
Qed.

Definition sim (n : nat) (c : code) (t bok kok : bool) (x : sden S) : Prop :=
  forall C p b k f s w sc r,
    code_at C p (link (Z.of_nat b) (Z.of_nat k) (Z.of_nat p) c) -> (length sc <= n)%nat ->
    x f w = Some r -> outc C (St S p s w sc) t sc (p + length c) b k bok kok r.

Lemma sim_weaken : forall n n' c t t' bok kok bok' kok' x,
  (n' <= n)%nat -> (t' = true -> t = true) -> (bok = true -> bok' = true) -> (kok = true -> kok' = true) ->
  sim n c t bok kok x -> sim n' c t' bok' kok' x.
Proof.
  intros n n' c t t' bok kok bok' kok' x Hn H1 H2 H3 H C p b k f s w sc r HC Hl E.
  eapply outc_weaken; [exact H1 | exact H2 | exact H3 |]. eapply H; eauto. lia.
Qed.
Lemma sim_ext : forall n c t bok kok (x y : sden S), (forall f w, x f w = y f w) ->
  sim n c t bok kok x -> sim n c t bok kok y.
Proof. intros n c t bok kok x y He H C p b k f s w sc r HC Hl E. rewrite <- He in E. eapply H; eauto. Qed.

Lemma sim_seq : forall n c1 c2 t1 t2 bok kok (x y : sden S),
  sim n c1 t1 bok kok x -> sim n c2 t2 bok kok y ->
  sim n (c1 ++ c2) (t1 && t2) bok kok (fun f w => then_ S (x f w) (y f)).
Proof.
  intros n c1 c2 t1 t2 bok kok x y H1 H2 C p b k f s w sc r HC Hl E.
  rewrite link_app in HC. apply code_at_app in HC. destruct HC as (HC1 & HC2). rewrite link_len in HC2.
  unfold zlen in HC2. rewrite <- Nat2Z.inj_add in HC2.
  destruct (x f w) as [r1|] eqn:E1; [|discriminate].
  specialize (H1 C p b k f s w sc r1 HC1 Hl E1). cbn [then_] in E.
  assert (Hsame : r1 = r -> outc C (St S p s w sc) (t1 && t2) sc (p + length c1) b k bok kok r).
  { intros ->. eapply outc_weaken; [| | |exact H1]; auto. intros Ht; apply andb_true_iff in Ht; tauto. }
  destruct r1 as [w1|w1|w1|vs w1|w1].
  - cbn [outc sk] in H1. destruct H1 as (s1 & Hs & Ht).
    specialize (H2 C _ b k f s1 w1 sc r HC2 Hl E). rewrite app_length, Nat.add_assoc.
    eapply outc_steps; [exact Hs | | eapply outc_weaken; [| | |exact H2]; auto; intros Ht'; apply andb_true_iff in Ht'; tauto].
    cbn [sk]. unfold td in *. intros Ht'. apply andb_true_iff in Ht'. tauto.
  - inversion E; subst. exact (Hsame eq_refl).
  - inversion E; subst. exact (Hsame eq_refl).
  - inversion E; subst. exact (Hsame eq_refl).
  - inversion E; subst. exact (Hsame eq_refl).
Qed.
Lemma sim_nil : forall n t bok kok, sim n [] t bok kok (fun _ w => Some (ONorm S w)).
Proof.
  intros n t bok kok C p b k f s w sc r HC Hl E. inversion E; subst. exists s. cbn [length sk].
  rewrite Nat.add_0_r. split; [constructor|]. unfold td. auto.
Qed.
Lemma sim_runs : forall n t bok kok A c (d : W S -> ev (W S) A), nobc c -> runs (td t) c d ->
  sim n c t bok kok (fun _ w => Some (of_unit S (d w))).
Proof.
  intros n t bok kok A c d Hn H C p b k f s w sc r HC Hl E. rewrite link_nobc in HC by auto.
  specialize (H C p s w sc HC). inversion E; subst. destruct (d w); exact H.
Qed.

(** ** Single instructions. *)
Lemma step_jmp : forall C p m off s w sc q, nth_error C p = Some (Jmp m off) ->
  Z.of_nat p + off = Z.of_nat q -> step S C (St S p s w sc) = Next S (St S q s w sc).
Proof.
  intros C p m off s w sc q HN E. unfold step. cbn [pc sk wd scs]. rewrite HN. unfold jump.
  rewrite E. destruct (Z.ltb_spec (Z.of_nat q) 0); [lia|]. cbn [sk wd scs]. rewrite Nat2Z.id. reflexivity.
Qed.
Lemma step_jmpcase : forall C p off s w sc q, nth_error C p = Some (JmpCase off) ->
  Z.of_nat p + off = Z.of_nat q -> step S C (St S p s w sc) = Next S (St S q [] w sc).
Proof.
  intros C p off s w sc q HN E. unfold step. cbn [pc sk wd scs]. rewrite HN. unfold jump.
  rewrite E. destruct (Z.ltb_spec (Z.of_nat q) 0); [lia|]. cbn [sk wd scs]. rewrite Nat2Z.id. reflexivity.
Qed.
Lemma step_jnt : forall C p m off v s w sc q, nth_error C p = Some (Jnt m off) ->
  Z.of_nat p + off = Z.of_nat q -> step S C (St S p (inl v :: s) w sc) =
  match vbool S v with
  | None => Failed S w
  | Some true => Next S (St S (p + 1) s w sc)
  | Some false => Next S (St S q s w sc)
  end.
Proof.
  intros C p m off v s w sc q HN E. unfold step. cbn [pc sk wd scs]. rewrite HN. unfold jump.
  rewrite E. destruct (Z.ltb_spec (Z.of_nat q) 0); [lia|]. cbn [sk wd scs]. rewrite Nat2Z.id, Nat.add_1_r. reflexivity.
Qed.
Lemma step_jt : forall C p m off v s w sc q, nth_error C p = Some (Jt m off) ->
  Z.of_nat p + off = Z.of_nat q -> step S C (St S p (inl v :: s) w sc) =
  match vbool S v with
  | None => Failed S w
  | Some false => Next S (St S (p + 1) s w sc)
  | Some true => Next S (St S q s w sc)
  end.
Proof.
  intros C p m off v s w sc q HN E. unfold step. cbn [pc sk wd scs]. rewrite HN. unfold jump.
  rewrite E. destruct (Z.ltb_spec (Z.of_nat q) 0); [lia|]. cbn [sk wd scs]. rewrite Nat2Z.id, Nat.add_1_r. reflexivity.
Qed.
Lemma step_push : forall C p z s w sc, nth_error C p = Some (PushScope z) -> (length sc < 10)%nat ->
  step S C (St S p s w sc) = Next S (St S (p + 1) s w (z :: sc)).
Proof.
  intros C p z s w sc HN Hl. unfold step. cbn [pc sk wd scs]. rewrite HN.
  assert (E : (length sc <? max_scopes)%nat = true) by (apply Nat.ltb_lt; exact Hl).
  rewrite E, Nat.add_1_r. reflexivity.
Qed.
Lemma step_pop : forall C p z s w sc, nth_error C p = Some PopScope ->
  step S C (St S p s w (z :: sc)) = Next S (St S (p + 1) s (popsc S z w) sc).
Proof. intros C p z s w sc HN. unfold step. cbn [pc sk wd scs]. rewrite HN, Nat.add_1_r. reflexivity. Qed.

(** A condition followed by JNT or JT. *)
Lemma cond_jnt : forall e cc m off C p q s w sc, ok_expr e = true -> comp_expr [] e = Some cc ->
  code_at C p cc -> nth_error C (p + length cc) = Some (Jnt m off) ->
  Z.of_nat (p + length cc) + off = Z.of_nat q ->
  match test S e w with
  | EOk true w1 => steps S C (St S p s w sc) (St S (p + length cc + 1) s w1 sc)
  | EOk false w1 => steps S C (St S p s w sc) (St S q s w1 sc)
  | EErr w1 => fails S C (St S p s w sc) w1
  end.
Proof.
  intros e cc m off C p q s w sc Hok E HC HN Hq.
  pose proof (expr_ok _ _ Hok E C p s w sc HC) as H. unfold test.
  destruct (eval_expr S e w) as [v w1 | w1]; cbn [ebind]; [|exact H].
  pose proof (step_jnt C _ m off v s w1 sc q HN Hq) as Hs. unfold truth.
  destruct (vbool S v) as [[|]|].
  - eapply steps_trans; [exact H | apply steps_one; exact Hs].
  - eapply steps_trans; [exact H | apply steps_one; exact Hs].
  - eapply fails_trans; [exact H | apply fails_now; exact Hs].
Qed.
Lemma cond_jt : forall e cc m off C p q s w sc, ok_expr e = true -> comp_expr [] e = Some cc ->
  code_at C p cc -> nth_error C (p + length cc) = Some (Jt m off) ->
  Z.of_nat (p + length cc) + off = Z.of_nat q ->
  match test S e w with
  | EOk true w1 => steps S C (St S p s w sc) (St S q s w1 sc)
  | EOk false w1 => steps S C (St S p s w sc) (St S (p + length cc + 1) s w1 sc)
  | EErr w1 => fails S C (St S p s w sc) w1
  end.
Proof.
  intros e cc m off C p q s w sc Hok E HC HN Hq.
  pose proof (expr_ok _ _ Hok E C p s w sc HC) as H. unfold test.
  destruct (eval_expr S e w) as [v w1 | w1]; cbn [ebind]; [|exact H].
  pose proof (step_jt C _ m off v s w1 sc q HN Hq) as Hs. unfold truth.
  destruct (vbool S v) as [[|]|].
  - eapply steps_trans; [exact H | apply steps_one; exact Hs].
  - eapply steps_trans; [exact H | apply steps_one; exact Hs].
  - eapply fails_trans; [exact H | apply fails_now; exact Hs].
Qed.

(** ** Blocks. *)
Lemma sim_block : forall n z c t x, (n < 10)%nat -> sim (Datatypes.S n) c t false false x ->
  forall bok kok, sim n ([PushScope z] ++ c ++ [PopScope]) t bok kok (fun f w => leaving S z (x f w)).
Proof.
  intros n z c t x Hn H bok kok C p b k f s w sc r HC Hl E.
  rewrite !link_app in HC. cbn [link] in HC. apply code_at_app in HC. destruct HC as (HC1 & HC2).
  apply code_at_app in HC2. destruct HC2 as (HC2 & HC3). rewrite link_len in HC3.
  apply code_at_cons in HC1. destruct HC1 as (HN1 & _). apply code_at_cons in HC3. destruct HC3 as (HN3 & _).
  cbn [length] in *.
  replace (Z.of_nat p + zlen [PushScope z]) with (Z.of_nat (p + 1)) in HC2 by (unfold zlen; cbn [length]; lia).
  destruct (x f w) as [r1|] eqn:E1; [|discriminate].
  specialize (H C (p + 1)%nat b k f s w (z :: sc) r1 HC2 ltac:(cbn [length]; lia) E1).
  assert (Hp : steps S C (St S p s w sc) (St S (p + 1) s w (z :: sc))).
  { apply steps_one, step_push; auto. lia. }
  rewrite !app_length. cbn [length].
  destruct r1 as [w1|w1|w1|vs w1|w1]; cbn [leaving] in E; inversion E; subst; cbn [outc sk] in *.
  - destruct H as (s' & H & Ht). exists s'. split; [|exact Ht].
    eapply steps_trans; [exact Hp|]. eapply steps_trans; [exact H|]. apply steps_one.
    rewrite (step_pop C _ z s' w1 sc HN3). do 2 f_equal. lia.
  - destruct H; discriminate.
  - destruct H; discriminate.
  - destruct H as (s2 & g & H & Hd & Ht). exists s2, g. split; [|split; [|exact Ht]].
    + eapply steps_trans; [exact Hp | exact H].
    + exact Hd.
  - eapply fails_trans; [exact Hp | exact H].
Qed.

(** ** if. *)
Lemma sim_if : forall n e cc cb cr t1 t2 bok kok (x y : sden S),
  ok_expr e = true -> comp_expr [] e = Some cc ->
  sim n cb t1 bok kok x ->
  match cr with
  | None => forall f w, y f w = Some (ONorm S w)
  | Some c => sim n c t2 bok kok y
  end ->
  sim n (if_code cc cb cr) (t1 && t2) bok kok (fun f w =>
    match test S e w with
    | EErr w1 => Some (OErr S w1)
    | EOk true w1 => x f w1
    | EOk false w1 => y f w1
    end).
Proof.
  intros n e cc cb cr t1 t2 bok kok x y Hok E Hx Hy C p b k f s w sc r HC Hl Er.
  assert (Hnb : nobc cc) by (apply ex_nobc; eapply ex_expr; eauto).
  assert (W1 : t1 && t2 = true -> t1 = true) by (intros Ht; apply andb_true_iff in Ht; tauto).
  assert (W2 : t1 && t2 = true -> t2 = true) by (intros Ht; apply andb_true_iff in Ht; tauto).
  unfold if_code in *. destruct cr as [cr|].
  - rewrite !link_app in HC. rewrite (link_nobc cc) in HC by auto. cbn [link] in HC.
    apply code_at_app in HC. destruct HC as (HC1 & HC2). apply code_at_app in HC2. destruct HC2 as (HC2 & HC3).
    apply code_at_app in HC3. destruct HC3 as (HC3 & HC4). apply code_at_app in HC4. destruct HC4 as (HC4 & HC5).
    rewrite link_len in *. cbn [length] in *.
    apply code_at_cons in HC2. destruct HC2 as (HN2 & _). apply code_at_cons in HC4. destruct HC4 as (HN4 & _).
    pose proof (cond_jnt e cc NoMark _ C p (p + length cc + 1 + length cb + 1) s w sc Hok E HC1 HN2
                  ltac:(unfold zlen; lia)) as Hc.
    rewrite !app_length. cbn [length].
    destruct (test S e w) as [[|] w1 | w1].
    + assert (HC3' : code_at C (p + length cc + 1) (link (Z.of_nat b) (Z.of_nat k) (Z.of_nat (p + length cc + 1)) cb)).
      { replace (Z.of_nat (p + length cc + 1)) with (Z.of_nat p + zlen cc + zlen [Jnt NoMark (zlen cb + 2)])
          by (unfold zlen; cbn [length]; lia). exact HC3. }
      specialize (Hx C _ b k f s w1 sc r HC3' Hl Er).
      assert (Hj : forall s' w', steps S C (St S (p + length cc + 1 + length cb) s' w' sc)
                     (St S (p + (length cc + (1 + (length cb + (1 + length cr))))) s' w' sc)).
      { intros. apply steps_one. eapply step_jmp; [exact HN4 | unfold zlen; lia]. }
      eapply outc_steps; [exact Hc | unfold td; auto |].
      destruct r as [w2|w2|w2|vs w2|w2]; cbn [outc sk] in *.
      * destruct Hx as (s' & H1 & H2). exists s'. split; [eapply steps_trans; [exact H1 | apply Hj] | unfold td in *; auto].
      * destruct Hx as (Hb & s' & H1 & H2). split; [auto|]. exists s'. unfold td in *; auto.
      * destruct Hx as (Hb & s' & H1 & H2). split; [auto|]. exists s'. unfold td in *; auto.
      * destruct Hx as (s2 & g & H1 & H2 & H3). exists s2, g. unfold td in *; auto.
      * exact Hx.
    + assert (HC5' : code_at C (p + length cc + 1 + length cb + 1)
                (link (Z.of_nat b) (Z.of_nat k) (Z.of_nat (p + length cc + 1 + length cb + 1)) cr)).
      { replace (Z.of_nat (p + length cc + 1 + length cb + 1)) with
          (Z.of_nat p + zlen cc + zlen [Jnt NoMark (zlen cb + 2)] + zlen cb + zlen [Jmp NoMark (zlen cr + 1)])
          by (unfold zlen; cbn [length]; lia). exact HC5. }
      specialize (Hy C _ b k f s w1 sc r HC5' Hl Er).
      eapply outc_steps; [exact Hc | unfold td; auto |].
      replace (p + (length cc + (1 + (length cb + (1 + length cr)))))%nat
        with (p + length cc + 1 + length cb + 1 + length cr)%nat by lia.
      eapply outc_weaken; [exact W2 | | |exact Hy]; auto.
    + inversion Er; subst. exact Hc.
  - rewrite !link_app in HC. rewrite (link_nobc cc) in HC by auto. cbn [link] in HC.
    apply code_at_app in HC. destruct HC as (HC1 & HC2). apply code_at_app in HC2. destruct HC2 as (HC2 & HC3).
    cbn [length] in *. apply code_at_cons in HC2. destruct HC2 as (HN2 & _).
    pose proof (cond_jnt e cc NoMark _ C p (p + length cc + 1 + length cb) s w sc Hok E HC1 HN2
                  ltac:(unfold zlen; lia)) as Hc.
    rewrite !app_length. cbn [length].
    replace (p + (length cc + (1 + length cb)))%nat with (p + length cc + 1 + length cb)%nat by lia.
    destruct (test S e w) as [[|] w1 | w1].
    + assert (HC3' : code_at C (p + length cc + 1) (link (Z.of_nat b) (Z.of_nat k) (Z.of_nat (p + length cc + 1)) cb)).
      { replace (Z.of_nat (p + length cc + 1)) with (Z.of_nat p + zlen cc + zlen [Jnt NoMark (zlen cb + 1)])
          by (unfold zlen; cbn [length]; lia). exact HC3. }
      specialize (Hx C _ b k f s w1 sc r HC3' Hl Er).
      eapply outc_steps; [exact Hc | unfold td; auto |]. eapply outc_weaken; [exact W1 | | |exact Hx]; auto.
    + rewrite Hy in Er. inversion Er; subst. exists s. split; [exact Hc | unfold td; auto].
    + inversion Er; subst. exact Hc.
Qed.

(** ** Loops. *)
(** The body of a loop in place: [pb] its start, [q] the instruction after it,
    [b] the closing instruction of the loop, to which breaks jump. *)
Lemma body_sim : forall n z c t x C pb b, (n < 10)%nat -> sim (Datatypes.S n) c t true true x ->
  let q := (pb + 1 + length c)%nat in
  code_at C pb (link (Z.of_nat b) (Z.of_nat q) (Z.of_nat pb) ([PushScope z] ++ c ++ [PopScope])) ->
  nth_error C b = Some PopScope ->
  forall f s w sc r, (length sc <= n)%nat -> leaving S z (x f w) = Some r ->
  match r with
  | ONorm _ w' | OCont _ w' =>
      exists s', steps S C (St S pb s w sc) (St S (q + 1) s' w' sc) /\ td t s s'
  | OBrk _ w' => exists s', steps S C (St S pb s w sc) (St S (b + 1) s' w' sc) /\ td t s s'
  | ORet _ vs w' => exists s2 g, steps S C (St S pb s w sc) s2 /\
      step S C s2 = Done S (leave_all S sc w') (rev vs ++ g) /\ td t s g
  | OErr _ w' => fails S C (St S pb s w sc) w'
  end.
Proof.
  intros n z c t x C pb b Hn H q HC HB f s w sc r Hl E.
  rewrite !link_app in HC. cbn [link] in HC. apply code_at_app in HC. destruct HC as (HC1 & HC2).
  apply code_at_app in HC2. destruct HC2 as (HC2 & HC3). rewrite link_len in HC3.
  apply code_at_cons in HC1. destruct HC1 as (HN1 & _). apply code_at_cons in HC3. destruct HC3 as (HN3 & _).
  cbn [length] in *.
  replace (Z.of_nat pb + zlen [PushScope z]) with (Z.of_nat (pb + 1)) in HC2 by (unfold zlen; cbn [length]; lia).
  destruct (x f w) as [r1|] eqn:E1; [|discriminate].
  specialize (H C (pb + 1)%nat b q f s w (z :: sc) r1 HC2 ltac:(cbn [length]; lia) E1).
  assert (Hp : steps S C (St S pb s w sc) (St S (pb + 1) s w (z :: sc))).
  { apply steps_one, step_push; auto. lia. }
  fold q in H, HN3.
  destruct r1 as [w1|w1|w1|vs w1|w1]; cbn [leaving] in E; inversion E; subst; cbn [outc sk] in *.
  - destruct H as (s' & H & Ht). exists s'. split; [|exact Ht].
    eapply steps_trans; [exact Hp|]. eapply steps_trans; [exact H|]. apply steps_one.
    apply (step_pop C _ z s' w1 sc HN3).
  - destruct H as (_ & s' & H & Ht). exists s'. split; [|exact Ht].
    eapply steps_trans; [exact Hp|]. eapply steps_trans; [exact H|]. apply steps_one.
    apply (step_pop C _ z s' w1 sc HB).
  - destruct H as (_ & s' & H & Ht). exists s'. split; [|exact Ht].
    eapply steps_trans; [exact Hp|]. eapply steps_trans; [exact H|]. apply steps_one.
    apply (step_pop C _ z s' w1 sc HN3).
  - destruct H as (s2 & g & H & Hd & Ht). exists s2, g. split; [|split; [|exact Ht]].
    + eapply steps_trans; [exact Hp | exact H].
    + exact Hd.
  - eapply fails_trans; [exact Hp | exact H].
Qed.

Section Loops.
Variables (C : code) (sc : list Z) (t : bool).
Variables (pcond pbody ppost pexit : nat).
Variable cond : W S -> ev (W S) bool.
Variable body : sden S.
Variable post : W S -> ev (W S) unit.
Hypothesis Hbody : forall f s w r, body f w = Some r ->
  match r with
  | ONorm _ w' | OCont _ w' =>
      exists s', steps S C (St S pbody s w sc) (St S ppost s' w' sc) /\ td t s s'
  | OBrk _ w' => exists s', steps S C (St S pbody s w sc) (St S pexit s' w' sc) /\ td t s s'
  | ORet _ vs w' => exists s2 g, steps S C (St S pbody s w sc) s2 /\
      step S C s2 = Done S (leave_all S sc w') (rev vs ++ g) /\ td t s g
  | OErr _ w' => fails S C (St S pbody s w sc) w'
  end.

Lemma loop_sim :
  (forall s w, match cond w with
   | EOk true w1 => steps S C (St S pcond s w sc) (St S pbody s w1 sc)
   | EOk false w1 => steps S C (St S pcond s w sc) (St S pexit s w1 sc)
   | EErr w1 => fails S C (St S pcond s w sc) w1
   end) ->
  (forall s w, match post w with
   | EOk _ w' => exists s', steps S C (St S ppost s w sc) (St S pcond s' w' sc) /\ td t s s'
   | EErr w' => fails S C (St S ppost s w sc) w'
   end) ->
  forall b k bok kok f s w r, loop S cond body post f w = Some r ->
  outc C (St S pcond s w sc) t sc pexit b k bok kok r.
Proof.
  intros Hcond Hpost b k bok kok f. induction f as [|f IH]; intros s w r E; [discriminate|].
  cbn [loop] in E. specialize (Hcond s w). destruct (cond w) as [[|] w1 | w1].
  - destruct (body f w1) as [r1|] eqn:Eb; [|discriminate].
    specialize (Hbody f s w1 r1 Eb).
    assert (Hgo : forall w2, (exists s', steps S C (St S pbody s w1 sc) (St S ppost s' w2 sc) /\ td t s s') ->
       match post w2 with
       | EOk _ w3 => loop S cond body post f w3 = Some r -> outc C (St S pcond s w sc) t sc pexit b k bok kok r
       | EErr w3 => Some (OErr S w3) = Some r -> outc C (St S pcond s w sc) t sc pexit b k bok kok r
       end).
    { intros w2 (s' & H1 & H2). specialize (Hpost s' w2). destruct (post w2) as [u w3 | w3].
      - intros E3. destruct Hpost as (s2 & H3 & H4).
        eapply outc_steps; [|..|exact (IH s2 w3 r E3)].
        + eapply steps_trans; [exact Hcond|]. eapply steps_trans; [exact H1 | exact H3].
        + cbn [sk]. unfold td in *. auto.
      - intros E3. inversion E3; subst. cbn [outc]. eapply fails_trans; [exact Hcond|].
        eapply fails_trans; [exact H1 | exact Hpost]. }
    destruct r1 as [w2|w2|w2|vs w2|w2].
    + specialize (Hgo w2 Hbody). destruct (post w2); auto.
    + inversion E; subst. destruct Hbody as (s' & H1 & H2). exists s'.
      split; [eapply steps_trans; [exact Hcond | exact H1] | exact H2].
    + specialize (Hgo w2 Hbody). destruct (post w2); auto.
    + inversion E; subst. destruct Hbody as (s2 & g & H1 & H2 & H3). exists s2, g.
      split; [eapply steps_trans; [exact Hcond | exact H1] | auto].
    + inversion E; subst. eapply fails_trans; [exact Hcond | exact Hbody].
  - inversion E; subst. exists s. split; [exact Hcond | unfold td; auto].
  - inversion E; subst. exact Hcond.
Qed.

Lemma do_sim :
  (forall s w, match cond w with
   | EOk true w1 => steps S C (St S ppost s w sc) (St S pbody s w1 sc)
   | EOk false w1 => steps S C (St S ppost s w sc) (St S pexit s w1 sc)
   | EErr w1 => fails S C (St S ppost s w sc) w1
   end) ->
  forall b k bok kok f s w r, do_loop S body cond f w = Some r ->
  outc C (St S pbody s w sc) t sc pexit b k bok kok r.
Proof.
  intros Hcond b k bok kok f. induction f as [|f IH]; intros s w r E; [discriminate|].
  cbn [do_loop] in E. destruct (body f w) as [r1|] eqn:Eb; [|discriminate].
  specialize (Hbody f s w r1 Eb).
  assert (Hgo : forall w2, (exists s', steps S C (St S pbody s w sc) (St S ppost s' w2 sc) /\ td t s s') ->
     match cond w2 with
     | EErr w3 => Some (OErr S w3)
     | EOk false w3 => Some (ONorm S w3)
     | EOk true w3 => do_loop S body cond f w3
     end = Some r -> outc C (St S pbody s w sc) t sc pexit b k bok kok r).
  { intros w2 (s' & H1 & H2) E3. specialize (Hcond s' w2). destruct (cond w2) as [[|] w3 | w3].
    - eapply outc_steps; [| |exact (IH s' w3 r E3)].
      + eapply steps_trans; [exact H1 | exact Hcond].
      + exact H2.
    - inversion E3; subst. exists s'. split; [eapply steps_trans; [exact H1 | exact Hcond] | exact H2].
    - inversion E3; subst. eapply fails_trans; [exact H1 | exact Hcond]. }
  destruct r1 as [w2|w2|w2|vs w2|w2].
  - exact (Hgo w2 Hbody E).
  - inversion E; subst. exact Hbody.
  - exact (Hgo w2 Hbody E).
  - inversion E; subst. exact Hbody.
  - inversion E; subst. exact Hbody.
Qed.
End Loops.

Definition body_code (z : Z) (c : code) : code := [PushScope z] ++ c ++ [PopScope].
Lemma body_code_len : forall z c, length (body_code z c) = (length c + 2)%nat.
Proof. intros. unfold body_code. rewrite !app_length. cbn [length]. lia. Qed.

Lemma sim_while : forall n e cc z c t x, (n < 10)%nat -> ok_expr e = true -> comp_expr [] e = Some cc ->
  sim (Datatypes.S n) c t true true x ->
  forall bok kok, sim n (while_code cc (body_code z c)) t bok kok
    (fun f w => loop S (test S e) (fun f w => leaving S z (x f w)) (fun w1 => EOk tt w1) f w).
Proof.
  intros n e cc z c t x Hn Hok E Hx bok kok C p b k f s w sc r HC Hl Er.
  assert (Hnb : nobc cc) by (apply ex_nobc; eapply ex_expr; eauto).
  unfold while_code in *. cbv zeta in *. rewrite link_again in HC. rewrite link_len.
  match type of HC with code_at _ _ (link ?b1 ?k1 0 ?c1) => set (cw := c1) in * end.
  rewrite <- (link_shift cw (zlen cw - 1) (zlen cw - 3) 0 (Z.of_nat p)) in HC.
  assert (Lw : length cw = (length cc + length c + 5)%nat).
  { unfold cw. rewrite !app_length, body_code_len. cbn [length]. lia. }
  unfold zlen in HC. rewrite Lw in *. unfold cw in HC. rewrite !link_app in HC.
  rewrite (link_nobc cc) in HC by auto. cbn [link] in HC.
  apply code_at_app in HC. destruct HC as (HC1 & HC2). apply code_at_app in HC2. destruct HC2 as (HC2 & HC3).
  apply code_at_app in HC3. destruct HC3 as (HC3 & HC4). rewrite link_len, body_code_len in HC4.
  cbn [length] in *. apply code_at_cons in HC2. destruct HC2 as (HN2 & _).
  apply code_at_cons in HC4. destruct HC4 as (HN4 & HC5). apply code_at_cons in HC5. destruct HC5 as (HN5 & _).
  rewrite ?body_code_len in HN2, HN4.
  set (pb := (p + length cc + 1)%nat).
  set (bb := (pb + (length c + 2) + 1)%nat).
  assert (HN5' : nth_error C bb = Some PopScope) by exact HN5.
  assert (HC3' : code_at C pb (link (Z.of_nat bb) (Z.of_nat (pb + 1 + length c)) (Z.of_nat pb) (body_code z c))).
  { match type of HC3 with code_at _ _ (link ?b1 ?k1 ?i1 _) =>
      replace (Z.of_nat bb) with b1; [replace (Z.of_nat (pb + 1 + length c)) with k1; [replace (Z.of_nat pb) with i1;
        [exact HC3|]|]|] end; unfold bb, pb, zlen; cbn [length]; lia. }
  eapply outc_weaken with (t := t) (bok := bok) (kok := kok); auto.
  replace (p + (length cc + length c + 5))%nat with (bb + 1)%nat by (unfold bb, pb; lia).
  eapply (loop_sim C sc t p pb (pb + 1 + length c + 1) (bb + 1)); [| | |exact Er].
  - intros f0 s0 w0 r0 E0.
    exact (body_sim n z c t x C pb bb Hn Hx HC3' HN5' f0 s0 w0 sc r0 Hl E0).
  - intros s0 w0. apply (cond_jnt e cc NoMark _ C p (bb + 1) s0 w0 sc Hok E HC1 HN2).
    unfold bb, pb, zlen. rewrite body_code_len. lia.
  - intros s0 w0. exists s0. split; [|unfold td; auto]. apply steps_one.
    replace (pb + 1 + length c + 1)%nat with (p + length cc + 1 + (length c + 2))%nat by (unfold pb; lia).
    eapply step_jmp; [exact HN4|]. unfold zlen. rewrite body_code_len. lia.
Qed.

Lemma sim_do : forall n e cc z c t x, (n < 10)%nat -> ok_expr e = true -> comp_expr [] e = Some cc ->
  sim (Datatypes.S n) c t true true x ->
  forall bok kok, sim n (do_code (body_code z c) cc) t bok kok
    (fun f w => do_loop S (fun f w => leaving S z (x f w)) (test S e) f w).
Proof.
  intros n e cc z c t x Hn Hok E Hx bok kok C p b k f s w sc r HC Hl Er.
  assert (Hnb : nobc cc) by (apply ex_nobc; eapply ex_expr; eauto).
  unfold do_code in *. cbv zeta in *. rewrite link_again in HC. rewrite link_len.
  match type of HC with code_at _ _ (link ?b1 ?k1 0 ?c1) => set (cw := c1) in * end.
  rewrite <- (link_shift cw (zlen cw - 1) (zlen (body_code z c) - 1) 0 (Z.of_nat p)) in HC.
  assert (Lw : length cw = (length cc + length c + 5)%nat).
  { unfold cw. rewrite !app_length, body_code_len. cbn [length]. lia. }
  unfold zlen in HC. rewrite Lw in *. unfold cw in HC. rewrite !link_app in HC.
  rewrite (link_nobc cc) in HC by auto. cbn [link] in HC. rewrite !body_code_len in HC.
  apply code_at_app in HC. destruct HC as (HC1 & HC2). apply code_at_app in HC2. destruct HC2 as (HC2 & HC3).
  rewrite link_len, body_code_len in *.
  apply code_at_cons in HC3. destruct HC3 as (HN3 & HC3). apply code_at_cons in HC3. destruct HC3 as (HN4 & HC3).
  apply code_at_cons in HC3. destruct HC3 as (HN5 & _).
  set (q := (p + (length c + 2))%nat).
  set (bb := (q + length cc + 1 + 1)%nat).
  assert (HN5' : nth_error C bb = Some PopScope) by exact HN5.
  assert (HC1' : code_at C p (link (Z.of_nat bb) (Z.of_nat (p + 1 + length c)) (Z.of_nat p) (body_code z c))).
  { match type of HC1 with code_at _ _ (link ?b1 ?k1 ?i1 _) =>
      replace (Z.of_nat bb) with b1; [replace (Z.of_nat (p + 1 + length c)) with k1; [
        exact HC1|]|] end; unfold bb, q; lia. }
  replace (p + (length cc + length c + 5))%nat with (bb + 1)%nat by (unfold bb, q; lia).
  eapply (do_sim C sc t p q (bb + 1)); [| |exact Er].
  - intros f0 s0 w0 r0 E0.
    pose proof (body_sim n z c t x C p bb Hn Hx HC1' HN5' f0 s0 w0 sc r0 Hl E0) as H.
    replace (p + 1 + length c + 1)%nat with q in H by (unfold q; lia). exact H.
  - intros s0 w0. pose proof (cond_jt e cc NoMark _ C q p s0 w0 sc Hok E HC2 HN3) as H.
    specialize (H ltac:(unfold q, zlen; rewrite body_code_len; lia)). destruct (test S e w0) as [[|] w1 | w1]; [exact H | | exact H].
    eapply steps_trans; [exact H|]. apply steps_one.
    eapply step_jmp; [exact HN4|]. unfold bb. lia.
Qed.

(** A [for] with condition: after the initialisation. *)
Lemma sim_for : forall n oe cc z c cp t t2 x y, (n < 10)%nat ->
  match oe with
  | Some e => ok_expr e = true /\ exists c0, comp_expr [] e = Some c0 /\ cc = Some c0
  | None => cc = None
  end ->
  sim (Datatypes.S n) c t true true x -> nobc cp -> runs (td t2) cp y ->
  let cond := match oe with Some e => test S e | None => fun w1 => EOk true w1 end in
  let cl := match cc with
            | Some c0 => c0 ++ [Jnt NoMark (zlen (body_code z c) + zlen cp + 3)] ++ body_code z c ++ cp
                         ++ [Jmp NoMark (- (zlen c0 + 1 + zlen (body_code z c) + zlen cp)); PopScope]
            | None => body_code z c ++ cp ++ [Jmp NoMark (- (zlen (body_code z c) + zlen cp)); PopScope]
            end in
  forall C p, code_at C p (link (Z.of_nat (p + length cl) - 1) (Z.of_nat (p + length cl) - 3 - zlen cp) (Z.of_nat p) cl) ->
  forall bok kok b k f s w sc r, (length sc <= n)%nat ->
  loop S cond (fun f w => leaving S z (x f w)) y f w = Some r ->
  outc C (St S p s w sc) (t && t2) sc (p + length cl) b k bok kok r.
Proof.
  intros n oe cc z c cp t t2 x y Hn Hcc Hx Hcp Hy cond cl C p HC bok kok b k f s w sc r Hl Er.
  assert (W1 : t && t2 = true -> t = true) by (intros Ht; apply andb_true_iff in Ht; tauto).
  assert (W2 : t && t2 = true -> t2 = true) by (intros Ht; apply andb_true_iff in Ht; tauto).
  assert (Hx' : sim (Datatypes.S n) c (t && t2) true true x) by (eapply sim_weaken; [..|exact Hx]; auto).
  assert (Hbody : forall pb q bb, q = (pb + 1 + length c)%nat ->
    code_at C pb (link (Z.of_nat bb) (Z.of_nat q) (Z.of_nat pb) (body_code z c)) ->
    nth_error C bb = Some PopScope ->
    forall f0 s0 w0 r0, leaving S z (x f0 w0) = Some r0 ->
    match r0 with
    | ONorm _ w' | OCont _ w' =>
        exists s', steps S C (St S pb s0 w0 sc) (St S (q + 1) s' w' sc) /\ td (t && t2) s0 s'
    | OBrk _ w' => exists s', steps S C (St S pb s0 w0 sc) (St S (bb + 1) s' w' sc) /\ td (t && t2) s0 s'
    | ORet _ vs w' => exists s2 g, steps S C (St S pb s0 w0 sc) s2 /\
        step S C s2 = Done S (leave_all S sc w') (rev vs ++ g) /\ td (t && t2) s0 g
    | OErr _ w' => fails S C (St S pb s0 w0 sc) w'
    end).
  { intros pb q bb -> H1 H2 f0 s0 w0 r0 E0. exact (body_sim n z c _ x C pb bb Hn Hx' H1 H2 f0 s0 w0 sc r0 Hl E0). }
  assert (Hpost : forall pp pc0 off, code_at C pp cp -> nth_error C (pp + length cp) = Some (Jmp NoMark off) ->
    Z.of_nat (pp + length cp) + off = Z.of_nat pc0 ->
    forall s0 w0, match y w0 with
    | EOk _ w' => exists s', steps S C (St S pp s0 w0 sc) (St S pc0 s' w' sc) /\ td (t && t2) s0 s'
    | EErr w' => fails S C (St S pp s0 w0 sc) w'
    end).
  { intros pp pc0 off H1 H2 H3 s0 w0. specialize (Hy C pp s0 w0 sc H1). destruct (y w0) as [u w' | w']; [|exact Hy].
    destruct Hy as (s' & Ha & Hb). exists s'. split; [|unfold td in *; auto].
    eapply steps_trans; [exact Ha|]. apply steps_one. eapply step_jmp; eauto. }
  destruct oe as [e|].
  - destruct Hcc as (Hok & c0 & E & ->).
    assert (Hnb : nobc c0) by (apply ex_nobc; eapply ex_expr; eauto).
    assert (Lw : length cl = (length c0 + length c + length cp + 5)%nat).
    { unfold cl. rewrite !app_length, body_code_len. cbn [length]. lia. }
    rewrite Lw in *. unfold cl in HC. rewrite !link_app in HC.
    rewrite (link_nobc c0) in HC by auto. rewrite (link_nobc cp) in HC by auto. cbn [link] in HC.
    apply code_at_app in HC. destruct HC as (HC1 & HC2). apply code_at_app in HC2. destruct HC2 as (HC2 & HC3).
    apply code_at_app in HC3. destruct HC3 as (HC3 & HC4). apply code_at_app in HC4. destruct HC4 as (HC4 & HC5).
    rewrite link_len, body_code_len in *. cbn [length] in *. apply code_at_cons in HC2. destruct HC2 as (HN2 & _).
    apply code_at_cons in HC5. destruct HC5 as (HN4 & HC5). apply code_at_cons in HC5. destruct HC5 as (HN5 & _).
    set (pb := (p + length c0 + 1)%nat) in *.
    set (q := (pb + 1 + length c)%nat).
    set (bb := (pb + (length c + 2) + length cp + 1)%nat).
    assert (HN5' : nth_error C bb = Some PopScope) by exact HN5.
    assert (HC3' : code_at C pb (link (Z.of_nat bb) (Z.of_nat q) (Z.of_nat pb) (body_code z c))).
    { match type of HC3 with code_at _ _ (link ?b1 ?k1 ?i1 _) =>
        replace (Z.of_nat bb) with b1; [replace (Z.of_nat q) with k1; [replace (Z.of_nat pb) with i1;
          [exact HC3|]|]|] end; unfold bb, q, pb, zlen; cbn [length]; lia. }
    replace (p + (length c0 + length c + length cp + 5))%nat with (bb + 1)%nat by (unfold bb, pb; lia).
    eapply (loop_sim C sc (t && t2) p pb (q + 1) (bb + 1)); [| | |exact Er].
    + apply (Hbody pb q bb eq_refl HC3' HN5').
    + intros s0 w0. apply (cond_jnt e c0 NoMark _ C p (bb + 1) s0 w0 sc Hok E HC1 HN2).
      unfold bb, pb, zlen. rewrite body_code_len. lia.
    + replace (pb + (length c + 2))%nat with (q + 1)%nat in HC4, HN4 by (unfold q; lia).
      apply (Hpost (q + 1)%nat p _ HC4 HN4). unfold q, pb, zlen. rewrite body_code_len. lia.
  - subst cc.
    assert (Lw : length cl = (length c + length cp + 4)%nat).
    { unfold cl. rewrite !app_length, body_code_len. cbn [length]. lia. }
    rewrite Lw in *. unfold cl in HC. rewrite !link_app in HC.
    rewrite (link_nobc cp) in HC by auto. cbn [link] in HC.
    apply code_at_app in HC. destruct HC as (HC3 & HC4). apply code_at_app in HC4. destruct HC4 as (HC4 & HC5).
    rewrite link_len, body_code_len in *. cbn [length] in *.
    apply code_at_cons in HC5. destruct HC5 as (HN4 & HC5). apply code_at_cons in HC5. destruct HC5 as (HN5 & _).
    set (q := (p + 1 + length c)%nat).
    set (bb := (p + (length c + 2) + length cp + 1)%nat).
    assert (HN5' : nth_error C bb = Some PopScope) by exact HN5.
    assert (HC3' : code_at C p (link (Z.of_nat bb) (Z.of_nat q) (Z.of_nat p) (body_code z c))).
    { match type of HC3 with code_at _ _ (link ?b1 ?k1 ?i1 _) =>
        replace (Z.of_nat bb) with b1; [replace (Z.of_nat q) with k1; [
          exact HC3|]|] end; unfold bb, q, zlen; lia. }
    replace (p + (length c + length cp + 4))%nat with (bb + 1)%nat by (unfold bb; lia).
    eapply (loop_sim C sc (t && t2) p p (q + 1) (bb + 1)); [| | |exact Er].
    + apply (Hbody p q bb eq_refl HC3' HN5').
    + intros s0 w0. constructor.
    + replace (p + (length c + 2))%nat with (q + 1)%nat in HC4, HN4 by (unfold q; lia).
      apply (Hpost (q + 1)%nat p _ HC4 HN4). unfold q, zlen. rewrite body_code_len. lia.
Qed.

(** ** Codes without break and continue marks. *)
Lemma finish_nobc : forall b c, nobc c -> nobc (finish is_call b c).
Proof.
  intros b c H. unfold finish. destruct (rev c) as [|x l] eqn:E; [exact H|].
  assert (Ec : c = rev l ++ [x]) by (rewrite <- (rev_involutive c), E; reflexivity).
  rewrite Ec in H. apply nobc_app in H. destruct H as (H1 & H2).
  destruct (with_reset is_call x) as [x'|] eqn:Ex.
  - apply nobc_app. split; [exact H1|]. constructor; [|constructor].
    destruct x; cbn [with_reset] in Ex; try discriminate; try (inversion Ex; exact I).
    destruct (is_call p); inversion Ex; exact I.
  - rewrite Ec. destruct b; repeat (apply nobc_app; split); auto. repeat constructor.
Qed.
Lemma expr_nobc : forall e c, comp_expr [] e = Some c -> nobc c.
Proof. intros e c E. apply ex_nobc. eapply ex_expr; eauto. Qed.
Lemma seq_nobc : forall es c, comp_seq foldk es = Some c -> nobc c.
Proof.
  induction es as [|e es IH]; intros c E; cbn [comp_seq] in E; [inversion E; constructor|].
  destruct (comp_expr [] e) as [c1|] eqn:E1; [|discriminate].
  destruct (comp_seq foldk es) as [c2|]; [|discriminate]. inversion E; subst.
  apply nobc_app. split; [eapply expr_nobc; eauto | auto].
Qed.
Lemma var_nobc : forall x oe c, comp_var foldk is_call x oe = Some c -> nobc c.
Proof.
  intros x [e|] c E; cbn [comp_var] in E; [|inversion E; constructor].
  destruct (comp_expr [] (var_expr x e)) as [c1|] eqn:E1; inversion E; subst.
  apply finish_nobc. eapply expr_nobc; eauto.
Qed.
Lemma vars_nobc : forall vs c, comp_vars foldk is_call vs = Some c -> nobc c.
Proof.
  induction vs as [|(x, oe) vs IH]; intros c E; cbn [comp_vars] in E; [inversion E; constructor|].
  destruct (comp_var foldk is_call x oe) as [c1|] eqn:E1; [|discriminate].
  destruct (comp_vars foldk is_call vs) as [c2|]; [|discriminate]. inversion E; subst.
  apply nobc_app. split; [eapply var_nobc; eauto | auto].
Qed.
Lemma init_nobc : forall i c, comp_init foldk is_call i = Some c -> nobc c.
Proof.
  intros [|vs|es] c E; cbn [comp_init] in E; [inversion E; constructor | eapply vars_nobc; eauto |].
  destruct (comp_seq foldk es) as [c1|] eqn:E1; inversion E; subst. apply finish_nobc. eapply seq_nobc; eauto.
Qed.
Lemma codes_nobc : forall es cs, codes foldk es = Some cs -> Forall nobc cs.
Proof.
  induction es as [|e es IH]; intros cs E; cbn [codes] in E; [inversion E; constructor|].
  destruct (comp_expr [] e) as [c1|] eqn:E1; [|discriminate].
  destruct (codes foldk es) as [c2|]; [|discriminate]. inversion E; subst.
  constructor; [eapply expr_nobc; eauto | auto].
Qed.
Lemma concat_nobc : forall cs, Forall nobc cs -> nobc (concat cs).
Proof. induction 1; cbn [concat]; [constructor|]. apply nobc_app. auto. Qed.
Lemma ltargets_nobc : forall ls c, comp_ltargets foldk ls = Some c -> nobc c.
Proof.
  induction ls as [|t ls IH]; intros c E; cbn [comp_ltargets] in E; [inversion E; constructor|].
  destruct (comp_target foldk t) as [c1|] eqn:E1; [|discriminate].
  destruct (comp_ltargets foldk ls) as [c2|]; [|discriminate]. inversion E; subst.
  apply nobc_app. split; [apply ex_nobc; eapply ex_target; eauto | auto].
Qed.
Lemma multi_nobc : forall ls rs c, comp_multi foldk is_call ls rs = Some c -> nobc c.
Proof.
  intros ls rs c E. unfold comp_multi in E. destruct (codes foldk rs) as [cs|] eqn:E1; [|discriminate].
  destruct (comp_ltargets foldk ls) as [ct|] eqn:E2; [|discriminate]. destruct cs as [|c1 cs]; [discriminate|].
  destruct (_ || _ || _); [discriminate|].
  match type of E with Some ?x = Some _ => assert (Ec : c = x) by congruence end. rewrite Ec. apply nobc_app. split.
  - apply concat_nobc. apply Forall_rev. apply (Forall_app _ (c1 :: cs)). split; [eapply codes_nobc; eauto|].
    apply Forall_forall. intros x Hx. apply repeat_spec in Hx. subst. repeat constructor.
  - apply nobc_app. split; [eapply ltargets_nobc; eauto | repeat constructor].
Qed.
Lemma as_ret_nobc : forall c, nobc c -> nobc (as_ret c).
Proof. intros c H. destruct c as [|[] [|? ?]]; try exact H; destruct x; try exact H; repeat constructor. Qed.
Lemma rets_nobc : forall es c, comp_rets foldk es = Some c -> nobc c.
Proof.
  induction es as [|e es IH]; intros c E; cbn [comp_rets] in E; [inversion E; constructor|].
  destruct (comp_expr [] e) as [c1|] eqn:E1; [|discriminate].
  destruct (comp_rets foldk es) as [c2|]; [|discriminate]. inversion E; subst.
  apply nobc_app. split; [apply as_ret_nobc; eapply expr_nobc; eauto | auto].
Qed.

(** ** for. *)
Lemma settled_accok : forall es c, settled es = true -> comp_seq foldk es = Some c ->
  accok (finish is_call false c).
Proof.
  induction es as [|e es IH]; intros c Hs E.
  - inversion E; subst. left. reflexivity.
  - cbn [comp_seq] in E. destruct (comp_expr [] e) as [c1|] eqn:E1; [|discriminate].
    destruct (comp_seq foldk es) as [c2|] eqn:E2; [|discriminate]. inversion E; subst; clear E.
    destruct es as [|e' es].
    + inversion E2; subst. rewrite app_nil_r. destruct e as [[|t a ts] hd tl tn]; [discriminate|].
      destruct (targets_snoc t a ts) as (ts' & t' & a' & T1 & _).
      destruct (comp_expr_inv _ _ _ _ _ _ E1) as (cts & chd & ctl & tt & ct & F1 & _ & _ & _ & _ & ->).
      destruct (T1 _ F1) as (d1 & d2 & _ & _ & ->). rewrite !app_assoc. rewrite finish_snoc. cbn [with_reset].
      apply accok_snoc. reflexivity.
    + assert (Hne : c2 <> []) by (eapply seq_nonempty; eauto).
      rewrite finish_app by auto.
      assert (Hs' : settled (ECons e' es) = true).
      { destruct e as [[|? ? ?] ? ? ?]; exact Hs. }
      destruct (IH c2 Hs' eq_refl) as [H0 | (a & i & -> & Hi)].
      * exfalso. unfold finish in H0. destruct (rev c2) as [|x l] eqn:Er.
        { apply Hne. rewrite <- (rev_involutive c2), Er. reflexivity. }
        destruct (with_reset is_call x); [destruct (rev l); discriminate|]. contradiction.
      * rewrite app_assoc. apply accok_snoc. exact Hi.
Qed.
Lemma vars_accok : forall vs c, comp_vars foldk is_call vs = Some c -> accok c.
Proof.
  induction vs as [|(x, oe) vs IH]; intros c E; cbn [comp_vars] in E; [inversion E; left; reflexivity|].
  destruct (comp_var foldk is_call x oe) as [c1|] eqn:E1; [|discriminate].
  destruct (comp_vars foldk is_call vs) as [c2|]; [|discriminate]. inversion E; subst.
  destruct (IH c2 eq_refl) as [-> | (a & i & -> & Hi)].
  - rewrite app_nil_r. destruct oe as [e|]; cbn [comp_var] in E1; [|inversion E1; left; reflexivity].
    destruct (comp_expr [] (var_expr x e)) as [c2|] eqn:E2; [|discriminate]. inversion E1; subst.
    eapply (settled_accok (ECons (var_expr x e) ENil)).
    + destruct e; reflexivity.
    + cbn [comp_seq]. rewrite E2, app_nil_r. reflexivity.
  - rewrite app_assoc. apply accok_snoc. exact Hi.
Qed.

Definition exec_init (i : forinit) (w : W S) : ev (W S) unit :=
  match i with FiNone => EOk tt w | FiVars vs => exec_vars S vs w | FiExprs es => exec_seq S es w end.
Lemma init_ok : forall i c, ok_init foldk good i = true -> comp_init foldk is_call i = Some c ->
  runs (td (tidy_init is_call i)) c (exec_init i).
Proof.
  intros [|vs|es] c Hok E; cbn [ok_init comp_init exec_init tidy_init] in *.
  - inversion E; subst. eapply runs_weaken; [|apply (runs_nil _ tt)].
    intros s s' H _ Hs. rewrite H. exact Hs.
  - eapply vars_ok; eauto.
  - destruct (comp_seq foldk es) as [c1|] eqn:E1; inversion E; subst. eapply seq_ok; eauto.
Qed.
Lemma idle_nil : forall i c, idle_init i = true -> comp_init foldk is_call i = Some c -> c = [].
Proof.
  intros [|vs|es] c Hi E; cbn [idle_init comp_init] in *.
  - inversion E; reflexivity.
  - revert c E. induction vs as [|(x, oe) vs IH]; intros c E; cbn [comp_vars forallb snd] in *; [inversion E; reflexivity|].
    apply andb_true_iff in Hi. destruct Hi as (H1 & H2). destruct oe; [discriminate|]. cbn [comp_var] in E.
    destruct (comp_vars foldk is_call vs) as [c2|]; [|discriminate]. inversion E; subst. cbn [app]. apply IH; auto.
  - destruct es; [|discriminate]. cbn in E. inversion E; reflexivity.
Qed.

(** The loop with its initialisation, in place. *)
Lemma for_in : forall n oe ci cic z c cp t t2 ti x y di, (n < 10)%nat ->
  match oe with
  | Some e => ok_expr e = true /\ exists c0, comp_expr [] e = Some c0 /\ cic = Some (ci ++ c0)
  | None => ci = [] /\ cic = None
  end ->
  sim (Datatypes.S n) c t true true x -> nobc cp -> runs (td t2) cp y ->
  nobc ci -> runs (td ti) ci (di : W S -> ev (W S) unit) ->
  let cond := match oe with Some e => test S e | None => fun w1 => EOk true w1 end in
  forall C p, code_at C p (for_code z false ci cic (body_code z c) cp) ->
  forall bok kok b k f s w sc r, (length sc <= n)%nat ->
  then_ S (Some (of_unit S (di w))) (fun w1 => loop S cond (fun f w => leaving S z (x f w)) y f w1) = Some r ->
  outc C (St S p s w sc) (ti && t2 && t) sc (p + length (for_code z false ci cic (body_code z c) cp)) b k bok kok r.
Proof.
  intros n oe ci cic z c cp t t2 ti x y di Hn Hcc Hx Hcp Hy Hci Hdi cond C p HC bok kok b k f s w sc r Hl Er.
  set (cc := match oe with Some _ => match cic with Some c1 => Some (skipn (length ci) c1) | None => None end | None => None end).
  set (cl := match cc with
            | Some c0 => c0 ++ [Jnt NoMark (zlen (body_code z c) + zlen cp + 3)] ++ body_code z c ++ cp
                         ++ [Jmp NoMark (- (zlen c0 + 1 + zlen (body_code z c) + zlen cp)); PopScope]
            | None => body_code z c ++ cp ++ [Jmp NoMark (- (zlen (body_code z c) + zlen cp)); PopScope]
            end).
  assert (Ef : for_code z false ci cic (body_code z c) cp =
     link (zlen (ci ++ cl) - 1) (zlen (ci ++ cl) - 3 - zlen cp) 0 (ci ++ cl)).
  { unfold for_code. cbv zeta. destruct oe as [e|].
    - destruct Hcc as (Hok & c0 & E & ->).
      assert (Ecl : cl = c0 ++ [Jnt NoMark (zlen (body_code z c) + zlen cp + 3)] ++ body_code z c ++ cp
                         ++ [Jmp NoMark (- (zlen c0 + 1 + zlen (body_code z c) + zlen cp)); PopScope]).
      { unfold cl, cc. rewrite skipn_app, skipn_all, Nat.sub_diag, skipn_O. reflexivity. }
      replace (zlen (ci ++ c0) - zlen ci + 1 + zlen (body_code z c) + zlen cp)
        with (zlen c0 + 1 + zlen (body_code z c) + zlen cp) by (unfold zlen; rewrite app_length; lia).
      rewrite Ecl, <- (app_assoc ci c0). f_equal; lia.
    - destruct Hcc as (-> & ->). unfold cl, cc. cbn [app].
      replace (zlen [] + zlen (body_code z c) + zlen cp) with (zlen (body_code z c) + zlen cp) by reflexivity.
      f_equal; lia. }
  rewrite Ef, link_len. rewrite Ef in HC.
  rewrite <- (link_shift _ _ _ 0 (Z.of_nat p)), link_app, (link_nobc ci) in HC by auto.
  apply code_at_app in HC. destruct HC as (HC1 & HC2).
  assert (HC2' : code_at C (p + length ci) (link (Z.of_nat (p + length ci + length cl) - 1)
     (Z.of_nat (p + length ci + length cl) - 3 - zlen cp) (Z.of_nat (p + length ci)) cl)).
  { match type of HC2 with code_at _ _ (link ?b1 ?k1 ?i1 _) =>
      replace (Z.of_nat (p + length ci + length cl) - 1) with b1;
      [replace (Z.of_nat (p + length ci + length cl) - 3 - zlen cp) with k1;
       [replace (Z.of_nat (p + length ci)) with i1; [exact HC2|]|]|] end;
    unfold zlen; rewrite ?app_length; lia. }
  specialize (Hdi C p s w sc HC1). rewrite app_length, Nat.add_assoc.
  destruct (di w) as [u w1 | w1]; cbn [of_unit then_] in Er.
  - destruct Hdi as (s1 & H1 & H2).
    assert (Hcc' : match oe with
      | Some e => ok_expr e = true /\ exists c0, comp_expr [] e = Some c0 /\ cc = Some c0
      | None => cc = None end).
    { destruct oe as [e|]; [|reflexivity]. destruct Hcc as (Hok & c0 & E & Ec). split; [auto|]. exists c0.
      split; [auto|]. unfold cc. rewrite Ec, skipn_app, skipn_all, Nat.sub_diag, skipn_O. reflexivity. }
    pose proof (sim_for n oe cc z c cp t t2 x y Hn Hcc' Hx Hcp Hy C _ HC2' bok kok b k f s1 w1 sc r Hl Er) as H.
    eapply outc_steps; [exact H1 | |].
    + cbn [sk]. unfold td in *. intros Ht. rewrite !andb_true_iff in Ht. tauto.
    + eapply outc_weaken; [| | |exact H]; auto.
      intros Ht. rewrite !andb_true_iff in *. tauto.
  - inversion Er; subst. exact Hdi.
Qed.

Lemma sim_for_stmt : forall n wrap oe ci cic z c cp t t2 ti x y di, (Datatypes.S n < 10)%nat ->
  match oe with
  | Some e => ok_expr e = true /\ exists c0, comp_expr [] e = Some c0 /\ cic = Some (ci ++ c0)
  | None => ci = [] /\ cic = None
  end ->
  sim (Datatypes.S (Datatypes.S n)) c t true true x -> nobc cp -> runs (td t2) cp y ->
  nobc ci -> runs (td ti) ci (di : W S -> ev (W S) unit) ->
  let cond := match oe with Some e => test S e | None => fun w1 => EOk true w1 end in
  let all f w := then_ S (Some (of_unit S (di w)))
       (fun w1 => loop S cond (fun f w => leaving S z (x f w)) y f w1) in
  forall zf bok kok,
  sim n (for_code zf wrap ci cic (body_code z c) cp) (ti && t2 && t) bok kok
    (fun f w => if (wrap : bool) then leaving S zf (all f w) else all f w).
Proof.
  intros n wrap oe ci cic z c cp t t2 ti x y di Hn Hcc Hx Hcp Hy Hci Hdi cond all zf bok kok.
  assert (E0 : forall z1, for_code z1 false ci cic (body_code z c) cp = for_code z false ci cic (body_code z c) cp)
    by reflexivity.
  assert (Hl0 : forall b k i, link b k i (for_code z false ci cic (body_code z c) cp) =
                              for_code z false ci cic (body_code z c) cp).
  { intros. unfold for_code. cbv zeta. apply link_again. }
  pose proof (for_in (Datatypes.S n) oe ci cic z c cp t t2 ti x y di Hn Hcc Hx Hcp Hy Hci Hdi) as H.
  cbv zeta in H. fold cond in H. destruct wrap.
  - assert (Ew : for_code zf true ci cic (body_code z c) cp =
                 [PushScope zf] ++ for_code z false ci cic (body_code z c) cp ++ [PopScope]) by reflexivity.
    rewrite Ew. apply (sim_block n zf _ _ all ltac:(lia)).
    intros C p b k f s w sc r HC Hl Er. rewrite Hl0 in HC.
    exact (H C p HC false false b k f s w sc r Hl Er).
  - rewrite E0. intros C p b k f s w sc r HC Hl Er. rewrite Hl0 in HC.
    exact (H C p HC bok kok b k f s w sc r ltac:(lia) Er).
Qed.

(** ** for-in. *)
Lemma fit_len : forall n vs, length (fit S n vs) = n.
Proof. intros. unfold fit. rewrite firstn_length, app_length, repeat_length. lia. Qed.

Lemma ask_steps : forall it k n (rst : bool) C p s w sc, code_at C p (it_ask it k n rst) ->
  match ask S it k n w with
  | EOk vs w' => length vs = n /\
      steps S C (St S p s w sc) (St S (p + 3) (if rst then [] else map inl (rev vs) ++ s) w' sc)
  | EErr w' => fails S C (St S p s w sc) w'
  end.
Proof.
  intros it k n rst C p s w sc HC. unfold it_ask in HC.
  apply code_at_cons in HC. destruct HC as (N1 & HC). apply code_at_cons in HC. destruct HC as (N2 & HC).
  apply code_at_cons in HC. destruct HC as (N3 & _).
  assert (S1 : step S C (St S p s w sc) = Next S (St S (p + 1) (inl (vget S w (Local it)) :: s) w sc)).
  { unfold step. cbn [pc sk wd scs]. rewrite N1. unfold pushed. do 2 f_equal. lia. }
  assert (S2 : step S C (St S (p + 1) (inl (vget S w (Local it)) :: s) w sc) =
    of_ev S (itload S k (vget S w (Local it)) w) (fun f w' => Next S (St S (p + 2) (inl f :: s) w' sc))).
  { unfold step. cbn [pc sk wd scs]. rewrite N2. unfold pushed. replace (Datatypes.S (p + 1)) with (p + 2)%nat by lia. reflexivity. }
  unfold ask. destruct (itload S k (vget S w (Local it)) w) as [f w1|w1]; cbn [ebind of_ev] in *.
  2:{ exists (St S (p + 1) (inl (vget S w (Local it)) :: s) w sc). split; [apply steps_one; exact S1 | exact S2]. }
  assert (S3 : step S C (St S (p + 2) (inl f :: s) w1 sc) =
    of_ev S (itcall S n f w1) (fun vs w' =>
      Next S (St S (p + 3) (if rst then [] else map inl (rev (fit S n vs)) ++ s) w' sc))).
  { unfold step. cbn [pc sk wd scs]. replace (p + 2)%nat with (p + 1 + 1)%nat by lia. rewrite N3.
    replace (Datatypes.S (p + 1 + 1)) with (p + 3)%nat by lia. reflexivity. }
  destruct (itcall S n f w1) as [vs w2|w2]; cbn [ebind of_ev] in *.
  - split; [apply fit_len|].
    eapply steps_cons; [exact S1|]. eapply steps_cons; [exact S2|]. apply steps_one. exact S3.
  - exists (St S (p + 2) (inl f :: s) w1 sc). split; [|exact S3].
    eapply steps_cons; [exact S1|]. apply steps_one. exact S2.
Qed.

Lemma more_jt : forall it off C p q s w sc, code_at C p (it_ask it ItEnd 1 false) ->
  nth_error C (p + 3) = Some (Jt NoMark off) -> Z.of_nat (p + 3) + off = Z.of_nat q ->
  match more S it w with
  | EOk true w1 => steps S C (St S p s w sc) (St S (p + 4) s w1 sc)
  | EOk false w1 => steps S C (St S p s w sc) (St S q s w1 sc)
  | EErr w1 => fails S C (St S p s w sc) w1
  end.
Proof.
  intros it off C p q s w sc HC HN Hq. pose proof (ask_steps _ _ _ _ C p s w sc HC) as H.
  unfold more. destruct (ask S it ItEnd 1 w) as [vs w1|w1]; cbn [ebind]; [|exact H].
  destruct H as (Hl & H). destruct vs as [|v [|? ?]]; try discriminate. cbn [hd].
  change (map inl (rev [v]) ++ s) with (@inl (V S) (L S) v :: s) in H.
  pose proof (step_jt C _ NoMark off v s w1 sc q HN Hq) as Hs. unfold truth.
  destruct (vbool S v) as [[|]|]; cbn [ebind negb].
  - eapply steps_trans; [exact H | apply steps_one; exact Hs].
  - replace (p + 4)%nat with (p + 3 + 1)%nat by lia.
    eapply steps_trans; [exact H | apply steps_one; exact Hs].
  - eapply fails_trans; [exact H | apply fails_now; exact Hs].
Qed.

Lemma advance_runs : forall it, runs emptied (it_ask it ItNext 0 true) (advance S it).
Proof.
  intros it C p s w sc HC. pose proof (ask_steps _ _ _ _ C p s w sc HC) as H. unfold advance.
  destruct (ask S it ItNext 0 w) as [vs w1|w1]; cbn [ebind]; [|exact H].
  exists []. split; [exact (proj2 H) | reflexivity].
Qed.

Lemma itinit_runs : forall a ca it, ok_operand foldk good a = true -> comp_operand foldk a = Some ca ->
  runs emptied (ca ++ [PushVar (Local it); ItInit])
    (fun w => ebind (eval_operand S a w) (fun v w1 => itinit S v (lvar S (Local it)) w1)).
Proof.
  intros a ca it Hok E C p s w sc HC. apply code_at_app in HC. destruct HC as (HC1 & HC2).
  apply code_at_cons in HC2. destruct HC2 as (N1 & HC2). apply code_at_cons in HC2. destruct HC2 as (N2 & _).
  pose proof (operand_ok a ca Hok E C p s w sc HC1) as H.
  destruct (eval_operand S a w) as [v w1|w1]; cbn [ebind]; [|exact H].
  assert (S1 : step S C (St S (p + length ca) (inl v :: s) w1 sc) =
     Next S (St S (p + length ca + 1) (inr (lvar S (Local it)) :: inl v :: s) w1 sc)).
  { unfold step. cbn [pc sk wd scs]. rewrite N1. unfold pushed. do 2 f_equal. lia. }
  assert (S2 : step S C (St S (p + length ca + 1) (inr (lvar S (Local it)) :: inl v :: s) w1 sc) =
     of_ev S (itinit S v (lvar S (Local it)) w1) (fun _ w' => Next S (St S (p + length ca + 2) [] w' sc))).
  { unfold step. cbn [pc sk wd scs]. rewrite N2.
    replace (Datatypes.S (p + length ca + 1)) with (p + length ca + 2)%nat by lia. reflexivity. }
  destruct (itinit S v (lvar S (Local it)) w1) as [u w2|w2]; cbn [of_ev] in S2.
  - exists []. split; [|reflexivity]. rewrite app_length. cbn [length]. rewrite Nat.add_assoc.
    eapply steps_trans; [exact H|]. eapply steps_cons; [exact S1|]. apply steps_one. exact S2.
  - eapply fails_trans; [exact H|]. exists (St S (p + length ca + 1) (inr (lvar S (Local it)) :: inl v :: s) w1 sc).
    split; [apply steps_one; exact S1 | exact S2].
Qed.

Lemma push_vars : forall xs, pushes (map (fun x => PushVar (Local x)) xs) inr
  (map (fun x w => EOk (lvar S (Local x)) w) xs).
Proof.
  induction xs as [|x xs IH]; [apply pushes_nil|].
  apply (pushes_app _ inr [PushVar (Local x)] _ [fun w => EOk (lvar S (Local x)) w]); [|exact IH].
  apply pushes_ref. intros C p s w sc HC. apply code_at_cons in HC. destruct HC as (N1 & _).
  apply steps_one. unfold step. cbn [pc sk wd scs]. rewrite N1. unfold pushed. cbn [length]. do 2 f_equal. lia.
Qed.
Lemma eval_vars : forall xs w, eval_list S (map (fun x w => EOk (lvar S (Local x)) w) xs) w =
  EOk (map (fun x => lvar S (Local x)) xs) w.
Proof. induction xs as [|x xs IH]; intros w; [reflexivity|]. cbn [map eval_list ebind]. rewrite IH. reflexivity. Qed.

Lemma fetch_runs : forall xs it, (length xs < 16)%nat -> runs emptied (it_get xs it) (fetch S xs it).
Proof.
  intros xs it Hx C p s w sc HC. unfold it_get in HC. rewrite Nat.mod_small in HC by exact Hx.
  apply code_at_app in HC. destruct HC as (HC1 & HC2). apply code_at_app in HC2. destruct HC2 as (HC2 & HC3).
  apply code_at_cons in HC3. destruct HC3 as (HN & _).
  pose proof (ask_steps _ _ _ _ C p s w sc HC1) as H. unfold fetch.
  destruct (ask S it ItGet (length xs) w) as [vs w1|w1]; cbn [ebind]; [|exact H].
  destruct H as (Hl & H). change (length (it_ask it ItGet (length xs) false)) with 3%nat in *.
  pose proof (push_vars xs C _ (map inl (rev vs) ++ s) w1 sc HC2) as H2. rewrite eval_vars in H2.
  set (locs := map (fun x => lvar S (Local x)) xs) in *.
  assert (Ll : length locs = length xs) by (unfold locs; apply map_length).
  rewrite map_length in *.
  assert (Es : step S C (St S (p + 3 + length xs) (rev (map inr locs) ++ map inl (rev vs) ++ s) w1 sc) =
     of_ev S (assign_all S (combine (rev locs) vs) w1)
       (fun _ w' => Next S (St S (Datatypes.S (p + 3 + length xs)) [] w' sc))).
  { unfold step. cbn [pc sk wd scs]. rewrite HN.
    replace (length xs) with (length (map (@inr (V S) (L S)) locs)) at 1 by (rewrite map_length; exact Ll).
    rewrite take_rev, app_nil_r.
    replace (map inl (rev vs) ++ s) with (rev (map (@inl (V S) (L S)) vs) ++ s) by (rewrite map_rev; reflexivity).
    replace (length xs) with (length (map (@inl (V S) (L S)) vs)) at 1 by (rewrite map_length; exact Hl).
    rewrite take_rev, app_nil_r, <- map_rev, store_assign by (rewrite rev_length; lia). reflexivity. }
  destruct (assign_all S (combine (rev locs) vs) w1) as [u w2|w2]; cbn [of_ev] in Es.
  - exists []. split; [|reflexivity]. eapply steps_trans; [exact H|]. eapply steps_trans; [exact H2|].
    apply steps_one. eapply eq_trans; [exact Es|]. do 2 f_equal. unfold it_get. rewrite !app_length, map_length.
    cbn [length it_ask]. lia.
  - eapply fails_trans; [exact H|]. eapply fails_trans; [exact H2|]. apply fails_now. exact Es.
Qed.

Lemma ask_nobc : forall it k n r, nobc (it_ask it k n r).
Proof. intros. repeat constructor. Qed.
Lemma get_nobc : forall xs it, nobc (it_get xs it).
Proof.
  intros xs it. unfold it_get. apply nobc_app. split; [apply ask_nobc|]. apply nobc_app. split; [|repeat constructor].
  induction xs; constructor; [exact I | assumption].
Qed.

Lemma forin_loop_sim : forall n xs it zb c t x, (n < 10)%nat -> (length xs < 16)%nat ->
  sim (Datatypes.S n) c t true true x ->
  forall C p, code_at C p (forin_loop xs it (body_code zb c)) ->
  forall bok kok b k f s w sc r, (length sc <= n)%nat ->
  loop S (more S it) (fun f1 w2 => then_ S (Some (of_unit S (fetch S xs it w2))) (fun w3 => leaving S zb (x f1 w3)))
    (advance S it) f w = Some r ->
  outc C (St S p s w sc) t sc (p + length (forin_loop xs it (body_code zb c))) b k bok kok r.
Proof.
  intros n xs it zb c t x Hn Hxs Hx C p HC bok kok b k f s w sc r Hl Er.
  set (ce := it_ask it ItEnd 1 false). set (cg := it_get xs it). set (cp := it_ask it ItNext 0 true).
  assert (L1 : length ce = 3%nat) by reflexivity. assert (L3 : length cp = 3%nat) by reflexivity.
  set (c1 := ce ++ [Jt NoMark (zlen cg + zlen (body_code zb c) + zlen cp + 3)] ++ cg ++ body_code zb c ++ cp
             ++ [Jmp NoMark (- (zlen ce + 1 + zlen cg + zlen (body_code zb c) + zlen cp)); PopScope]).
  assert (Ef : forin_loop xs it (body_code zb c) = link (zlen c1 - 1) (zlen c1 - 2 - zlen cp - 1) 0 c1) by reflexivity.
  assert (Lw : length c1 = (length cg + length c + 11)%nat).
  { unfold c1. rewrite !app_length, body_code_len. cbn [length]. lia. }
  rewrite Ef, link_len, Lw. rewrite Ef in HC.
  rewrite <- (link_shift _ _ _ 0 (Z.of_nat p)) in HC. unfold c1 at 3 in HC. rewrite !link_app in HC.
  rewrite (link_nobc ce) in HC by apply ask_nobc. rewrite (link_nobc cg) in HC by apply get_nobc.
  rewrite (link_nobc cp) in HC by apply ask_nobc. cbn [link] in HC.
  apply code_at_app in HC. destruct HC as (HC1 & HC2). apply code_at_app in HC2. destruct HC2 as (HC2 & HC3).
  apply code_at_app in HC3. destruct HC3 as (HC3 & HC4). apply code_at_app in HC4. destruct HC4 as (HC4 & HC5).
  apply code_at_app in HC5. destruct HC5 as (HC5 & HC6).
  rewrite link_len, body_code_len in *. rewrite L1, L3 in *. cbn [length] in *.
  apply code_at_cons in HC2. destruct HC2 as (HN2 & _).
  apply code_at_cons in HC6. destruct HC6 as (HN6 & HC6). apply code_at_cons in HC6. destruct HC6 as (HN7 & _).
  set (pb := (p + 3 + 1 + length cg)%nat) in *.
  set (q := (pb + 1 + length c)%nat).
  set (bb := (pb + (length c + 2) + 3 + 1)%nat) in *.
  assert (HC4' : code_at C pb (link (Z.of_nat bb) (Z.of_nat q) (Z.of_nat pb) (body_code zb c))).
  { match type of HC4 with code_at _ _ (link ?b1 ?k1 ?i1 _) =>
      replace (Z.of_nat bb) with b1; [replace (Z.of_nat q) with k1; [replace (Z.of_nat pb) with i1;
        [exact HC4|]|]|] end; unfold bb, q, pb, zlen; rewrite ?Lw, ?L1, ?L3; cbn [length]; lia. }
  replace (p + (length cg + length c + 11))%nat with (bb + 1)%nat by (unfold bb, pb; lia).
  eapply (loop_sim C sc t p (p + 4) (q + 1) (bb + 1)); [| | |exact Er].
  - intros f0 s0 w0 r0 E0.
    pose proof (fetch_runs xs it Hxs C (p + 3 + 1)%nat s0 w0 sc HC3) as Hf. fold cg in Hf. fold pb in Hf.
    replace (p + 4)%nat with (p + 3 + 1)%nat by lia. cbv beta in E0.
    destruct (fetch S xs it w0) as [u w1|w1]; cbn [of_unit then_] in E0.
    + destruct Hf as (s1 & H1 & ->).
      pose proof (body_sim n zb c t x C pb bb Hn Hx HC4' HN7 f0 [] w1 sc r0 Hl E0) as H2.
      fold q in H2.
      destruct r0 as [w2|w2|w2|vs w2|w2]; cbn beta iota in *.
      * destruct H2 as (s2 & H2 & Ht). exists s2. split; [eapply steps_trans; eauto | unfold td in *; auto].
      * destruct H2 as (s2 & H2 & Ht). exists s2. split; [eapply steps_trans; eauto | unfold td in *; auto].
      * destruct H2 as (s2 & H2 & Ht). exists s2. split; [eapply steps_trans; eauto | unfold td in *; auto].
      * destruct H2 as (s2 & g & H2 & H3 & Ht). exists s2, g. split; [eapply steps_trans; eauto | split; [auto | unfold td in *; auto]].
      * eapply fails_trans; eauto.
    + inversion E0; subst. exact Hf.
  - intros s0 w0. eapply more_jt; [exact HC1 | exact HN2 |].
    unfold bb, pb, zlen. rewrite body_code_len, L3. lia.
  - intros s0 w0. replace (pb + (length c + 2))%nat with (q + 1)%nat in HC5, HN6 by (unfold q; lia).
    pose proof (advance_runs it C (q + 1)%nat s0 w0 sc HC5) as H. fold cp in H. rewrite L3 in H.
    destruct (advance S it w0) as [u w1|w1]; [|exact H]. destruct H as (s1 & H1 & ->). exists [].
    split; [|unfold td; auto]. eapply steps_trans; [exact H1|]. apply steps_one.
    eapply step_jmp; [exact HN6|]. unfold q, pb, zlen. rewrite body_code_len, L1, L3. lia.
Qed.

Lemma sim_forin : forall n z xs it a ca zb c t x, (Datatypes.S n < 10)%nat -> (length xs < 16)%nat ->
  ok_operand foldk good a = true -> comp_operand foldk a = Some ca ->
  sim (Datatypes.S (Datatypes.S n)) c t true true x ->
  forall bok kok, sim n (forin_code z xs it ca (body_code zb c)) t bok kok
    (fun f w => leaving S z (then_ S
      (Some (of_unit S (ebind (eval_operand S a w) (fun v w1 => itinit S v (lvar S (Local it)) w1))))
      (fun w1 => loop S (more S it)
         (fun f1 w2 => then_ S (Some (of_unit S (fetch S xs it w2))) (fun w3 => leaving S zb (x f1 w3)))
         (advance S it) f w1))).
Proof.
  intros n z xs it a ca zb c t x Hn Hxs Hok E Hx bok kok.
  unfold forin_code. rewrite (app_assoc (ca ++ _) (forin_loop _ _ _)).
  apply (sim_block n z _ t _ ltac:(lia)).
  intros C p b k f s w sc r HC Hl Er.
  assert (Hnb : nobc (ca ++ [PushVar (Local it); ItInit])).
  { apply nobc_app. split; [apply ex_nobc; eapply ex_operand; eauto | repeat constructor]. }
  rewrite link_app, (link_nobc (ca ++ _)) in HC by exact Hnb.
  apply code_at_app in HC. destruct HC as (HC1 & HC2).
  assert (Hlk : forall b1 k1 i1, link b1 k1 i1 (forin_loop xs it (body_code zb c)) = forin_loop xs it (body_code zb c)).
  { intros. unfold forin_loop. cbv zeta. apply link_again. }
  rewrite Hlk in HC2.
  pose proof (itinit_runs a ca it Hok E C p s w sc HC1) as H.
  rewrite (app_length (ca ++ _)), Nat.add_assoc.
  match type of H with match ?d with _ => _ end => destruct d as [u w1|w1] end; cbn [of_unit then_] in Er.
  - destruct H as (s1 & H1 & ->).
    pose proof (forin_loop_sim (Datatypes.S n) xs it zb c t x Hn Hxs Hx C _ HC2 false false b k f [] w1 sc r Hl Er) as H2.
    eapply outc_steps; [exact H1 | unfold td; auto | exact H2].
  - inversion Er; subst. exact H.
Qed.

(** ** switch. *)
Lemma plain_finish : forall a c, plain_label (LCase a) = true -> comp_operand foldk a = Some c ->
  finish is_call false c = c /\ ok_operand foldk good a = true.
Proof. intros [] c H E; try discriminate; inversion E; subst; auto. Qed.
Lemma header_len_cons : forall c o l, header_len ((c, o) :: l) = zlen c + 1 + header_len l.
Proof. reflexivity. Qed.
Lemma header_len_pos : forall l, 0 < header_len l.
Proof. induction l as [|(c, o) l IH]; [reflexivity|]. rewrite header_len_cons. unfold zlen. lia. Qed.
Lemma header_length : forall l n, zlen (header n l) = header_len l - 1.
Proof.
  induction l as [|(c, o) l IH]; intros n; [reflexivity|]. cbn [header]. rewrite header_len_cons.
  specialize (IH (n - zlen c - 1)). unfold zlen in *. rewrite !app_length. cbn [length]. lia.
Qed.
Lemma header_nobc : forall l n, Forall (fun p => nobc (fst p)) l -> nobc (header n l).
Proof.
  induction l as [|(c, o) l IH]; intros n H; [constructor|]. inversion H; subst. cbn [header].
  apply nobc_app. split; [assumption|]. constructor; [exact I | apply IH; assumption].
Qed.
Lemma labels_nobc : forall ls off l d, comp_labels foldk is_call off ls = Some (l, d) ->
  Forall (fun p => nobc (fst p)) l.
Proof.
  induction ls as [|[a|] ls IH]; intros off l d E; cbn [comp_labels] in E.
  - inversion E; constructor.
  - destruct (comp_operand foldk a) as [c|] eqn:Ea; [|discriminate].
    destruct (comp_labels foldk is_call off ls) as [(l1, d1)|] eqn:El; [|discriminate]. inversion E; subst.
    constructor; [|eapply IH; eauto]. cbn [fst]. apply finish_nobc, ex_nobc. eapply ex_operand; eauto.
  - destruct (comp_labels foldk is_call off ls) as [(l1, [d1|])|] eqn:El; try discriminate.
    inversion E; subst. eapply IH; eauto.
Qed.

Lemma labels_scan : forall ls off l d, forallb plain_label ls = true ->
  comp_labels foldk is_call off ls = Some (l, d) ->
  forall rest C q B, code_at C q (header (header_len (l ++ rest)) (l ++ rest)) ->
  Z.of_nat q + header_len (l ++ rest) + off = Z.of_nat B ->
  forall v s w sc,
  match match_labels S ls v w with
  | EOk true w' => steps S C (St S q (inl v :: s) w sc) (St S B [] w' sc)
  | EOk false w' => exists q', steps S C (St S q (inl v :: s) w sc) (St S q' (inl v :: s) w' sc) /\
      code_at C q' (header (header_len rest) rest) /\
      Z.of_nat q' + header_len rest = Z.of_nat q + header_len (l ++ rest)
  | EErr w' => fails S C (St S q (inl v :: s) w sc) w'
  end.
Proof.
  induction ls as [|[a|] ls IH]; intros off l d Hp E rest C q B HC HB v s w sc; cbn [comp_labels match_labels] in *.
  - inversion E; subst. exists q. cbn [app] in *. split; [constructor|]. auto.
  - cbn [forallb] in Hp. apply andb_true_iff in Hp. destruct Hp as (Hp1 & Hp2).
    destruct (comp_operand foldk a) as [c|] eqn:Ea; [|discriminate].
    destruct (comp_labels foldk is_call off ls) as [(l1, d1)|] eqn:El; [|discriminate].
    destruct (plain_finish _ _ Hp1 Ea) as (Ef & Oka). rewrite Ef in E. inversion E; subst; clear E.
    cbn [app header] in HC.
    assert (Eh : header_len (((c, off) :: l1) ++ rest) = zlen c + 1 + header_len (l1 ++ rest)) by reflexivity.
    apply code_at_app in HC. destruct HC as (HC1 & HC2). cbn [app] in HC2.
    apply code_at_cons in HC2. destruct HC2 as (HN & HC3). rewrite <- Nat.add_1_r in HC3.
    cbn [app] in Eh, HB. cbn [app]. rewrite Eh in *.
    replace (zlen c + 1 + header_len (l1 ++ rest) - zlen c - 1) with (header_len (l1 ++ rest)) in HC3 by lia.
    pose proof (operand_ok _ _ Oka Ea C q (inl v :: s) w sc HC1) as H1.
    destruct (eval_operand S a w) as [k w1 | w1]; cbn [ebind]; [|exact H1].
    assert (Es : step S C (St S (q + length c) (inl k :: inl v :: s) w1 sc) =
       of_ev S (caseeq S v k w1) (fun e w' => if e then Next S (St S B [] w' sc)
          else Next S (St S (q + length c + 1) (inl v :: s) w' sc))).
    { unfold step. cbn [pc sk wd scs]. rewrite HN. destruct (caseeq S v k w1) as [[|] w2 | w2]; cbn [of_ev]; try reflexivity.
      - unfold jump. cbn [sk wd scs].
        replace (Z.of_nat (q + length c) + (zlen c + 1 + header_len (l1 ++ rest) - zlen c + off)) with (Z.of_nat B)
          by (unfold zlen in *; lia).
        destruct (Z.ltb_spec (Z.of_nat B) 0); [lia|]. rewrite Nat2Z.id. reflexivity.
      - rewrite Nat.add_1_r. reflexivity. }
    destruct (caseeq S v k w1) as [[|] w2 | w2]; cbn [ebind of_ev] in *.
    + eapply steps_trans; [exact H1 | apply steps_one; exact Es].
    + assert (HB' : Z.of_nat (q + length c + 1) + header_len (l1 ++ rest) + off = Z.of_nat B) by (unfold zlen in *; lia).
      specialize (IH off l1 d Hp2 El rest C (q + length c + 1)%nat B HC3 HB' v s w2 sc).
      assert (H2 : steps S C (St S q (inl v :: s) w sc) (St S (q + length c + 1) (inl v :: s) w2 sc)).
      { eapply steps_trans; [exact H1 | apply steps_one; exact Es]. }
      destruct (match_labels S ls v w2) as [[|] w3 | w3].
      * eapply steps_trans; [exact H2 | exact IH].
      * destruct IH as (q' & I1 & I2 & I3). exists q'. split; [eapply steps_trans; [exact H2 | exact I1]|].
        split; [exact I2|]. unfold zlen in *; lia.
      * eapply fails_trans; [exact H2 | exact IH].
    + eapply fails_trans; [exact H1 | apply fails_now; exact Es].
  - cbn [forallb plain_label andb] in Hp.
    destruct (comp_labels foldk is_call off ls) as [(l1, [d1|])|] eqn:El; try discriminate.
    inversion E; subst. eapply IH; eauto.
Qed.

(** The code of one clause, and the offset of clause [j]. *)
Definition clause_code (brk : bool) (cs : clauses) (c : code) : code :=
  if brk then match cs with CNil => c | _ => c ++ [Jmp BreakMark 0] end else c.
Fixpoint clause_off (n : nat) (lp : bool) (off : Z) (cs : clauses) (j : nat) : Z :=
  match cs with
  | CNil => off
  | CCons ls ss brk cs' =>
      match j with
      | O => off
      | Datatypes.S j' =>
          match comp_stmts foldk is_call n lp true ss with
          | Some c => clause_off n lp (off + zlen (clause_code brk cs' c)) cs' j'
          | None => off
          end
      end
  end.
Lemma clauses_inv : forall n lp off ls ss brk cs body l d,
  comp_clauses foldk is_call n lp off (CCons ls ss brk cs) = Some (body, l, d) ->
  exists c l1 d1 body' l' d',
    comp_stmts foldk is_call n lp true ss = Some c /\ comp_labels foldk is_call off ls = Some (l1, d1) /\
    comp_clauses foldk is_call n lp (off + zlen (clause_code brk cs c)) cs = Some (body', l', d') /\
    body = clause_code brk cs c ++ body' /\ l = l1 ++ l' /\
    match d1, d' with Some _, Some _ => False | Some x, None => d = Some x | None, _ => d = d' end.
Proof.
  intros n lp off ls ss brk cs body l d E. cbn [comp_clauses] in E.
  change ((if brk then match cs with CNil => ?c | _ => _ end else ?c)) with (clause_code brk cs c) in E.
  destruct (comp_labels foldk is_call off ls) as [(l1, d1)|] eqn:E1; [|discriminate].
  match type of E with match ?x with _ => _ end = _ => change x with (comp_stmts foldk is_call n lp true ss) in E end.
  destruct (comp_stmts foldk is_call n lp true ss) as [c|] eqn:E2; [|discriminate].
  destruct (last_default ls && negb brk); [discriminate|]. cbv zeta in E.
  fold (clause_code brk cs c) in E.
  match type of E with match ?x with _ => _ end = _ =>
    change x with (comp_clauses foldk is_call n lp (off + zlen (clause_code brk cs c)) cs) in E end.
  destruct (comp_clauses foldk is_call n lp (off + zlen (clause_code brk cs c)) cs) as [((body', l'), d')|] eqn:E3; [|discriminate].
  exists c, l1, d1, body', l', d'.
  destruct d1 as [x|], d' as [y|]; try discriminate; inversion E; subst; repeat split; auto.
Qed.
Lemma clause_off_le : forall cs n lp off j, off <= clause_off n lp off cs j.
Proof.
  induction cs as [|ls ss brk cs IH]; intros n lp off j; cbn [clause_off]; [lia|].
  destruct j; [lia|]. destruct (comp_stmts foldk is_call n lp true ss); [|lia].
  etransitivity; [|apply IH]. unfold zlen. lia.
Qed.

Lemma clauses_scan : forall cs kok n lp off body l d, 0 <= off -> ok_clauses foldk good kok cs = true ->
  comp_clauses foldk is_call n lp off cs = Some (body, l, d) ->
  forall i C q base, code_at C q (header (header_len l) l) -> Z.of_nat q + header_len l = base ->
  forall v s w sc,
  match select S i cs v w with
  | EOk (Some j) w' => (i <= j)%nat /\
      steps S C (St S q (inl v :: s) w sc) (St S (Z.to_nat (base + clause_off n lp off cs (j - i))) [] w' sc)
  | EOk None w' => exists q', steps S C (St S q (inl v :: s) w sc) (St S q' (inl v :: s) w' sc) /\
      Z.of_nat q' + 1 = base
  | EErr w' => fails S C (St S q (inl v :: s) w sc) w'
  end.
Proof.
  induction cs as [|ls ss brk cs IH]; intros kok n lp off body l d Hoff Hok E i C q base HC HB v s w sc.
  - inversion E; subst. cbn [select]. exists q. split; [constructor|]. reflexivity.
  - destruct (clauses_inv _ _ _ _ _ _ _ _ _ _ E) as (c & l1 & d1 & body' & l' & d' & E1 & E2 & E3 & -> & -> & _).
    cbn [ok_clauses] in Hok. rewrite !andb_true_iff in Hok. destruct Hok as ((Ok1 & _) & Ok2).
    assert (Hpos : 0 < header_len (l1 ++ l')) by apply header_len_pos.
    pose proof (labels_scan ls off l1 d1 Ok1 E2 l' C q (Z.to_nat (base + off)) HC ltac:(lia) v s w sc) as H.
    cbn [select]. destruct (match_labels S ls v w) as [[|] w1 | w1]; cbn [ebind].
    + split; [lia|]. rewrite Nat.sub_diag. exact H.
    + destruct H as (q' & H1 & H2 & H3).
      assert (Hoff' : 0 <= off + zlen (clause_code brk cs c)) by (unfold zlen; lia).
      specialize (IH kok n lp _ body' l' d' Hoff' Ok2 E3 (Datatypes.S i) C q' base H2 ltac:(lia) v s w1 sc).
      destruct (select S (Datatypes.S i) cs v w1) as [[j|] w2 | w2].
      * destruct IH as (I1 & I2). split; [lia|]. replace (j - i)%nat with (Datatypes.S (j - Datatypes.S i)) by lia.
        cbn [clause_off]. rewrite E1. eapply steps_trans; [exact H1 | exact I2].
      * destruct IH as (q2 & I1 & I2). exists q2. split; [eapply steps_trans; [exact H1 | exact I1] | exact I2].
      * eapply fails_trans; [exact H1 | exact IH].
    + exact H.
Qed.

Lemma labels_default : forall ls off l d, comp_labels foldk is_call off ls = Some (l, d) ->
  d = if existsb is_default ls then Some off else None.
Proof.
  induction ls as [|[a|] ls IH]; intros off l d E; cbn [comp_labels existsb is_default orb] in *.
  - inversion E; reflexivity.
  - destruct (comp_operand foldk a) as [c|]; [|discriminate].
    destruct (comp_labels foldk is_call off ls) as [(l1, d1)|] eqn:El; [|discriminate]. inversion E; subst.
    eapply IH; eauto.
  - destruct (comp_labels foldk is_call off ls) as [(l1, [d1|])|]; try discriminate. inversion E; reflexivity.
Qed.
Lemma default_off : forall cs n lp off body l d i, comp_clauses foldk is_call n lp off cs = Some (body, l, d) ->
  match default_at i cs with
  | Some j => (i <= j)%nat /\ d = Some (clause_off n lp off cs (j - i))
  | None => d = None
  end.
Proof.
  induction cs as [|ls ss brk cs IH]; intros n lp off body l d i E.
  - inversion E; reflexivity.
  - destruct (clauses_inv _ _ _ _ _ _ _ _ _ _ E) as (c & l1 & d1 & body' & l' & d' & E1 & E2 & E3 & -> & -> & Hd).
    apply labels_default in E2. cbn [default_at]. specialize (IH _ _ _ _ _ _ (Datatypes.S i) E3).
    destruct (existsb is_default ls).
    + subst d1. split; [lia|]. rewrite Nat.sub_diag. cbn [clause_off]. destruct d'; [contradiction | exact Hd].
    + subst d1. rewrite Hd. destruct (default_at (Datatypes.S i) cs) as [j|]; [|exact IH].
      destruct IH as (I1 & ->). split; [lia|]. replace (j - i)%nat with (Datatypes.S (j - Datatypes.S i)) by lia.
      cbn [clause_off]. rewrite E1. reflexivity.
Qed.
Lemma labels_case : forall ls off l d, comp_labels foldk is_call off ls = Some (l, d) ->
  existsb (fun x => negb (is_default x)) ls = true -> l <> [].
Proof.
  induction ls as [|[a|] ls IH]; intros off l d E H; cbn [comp_labels existsb is_default negb orb] in *; [discriminate| |].
  - destruct (comp_operand foldk a) as [c|]; [|discriminate].
    destruct (comp_labels foldk is_call off ls) as [(l1, d1)|] eqn:El; [|discriminate]. inversion E; subst. discriminate.
  - destruct (comp_labels foldk is_call off ls) as [(l1, [d1|])|] eqn:El; try discriminate. inversion E; subst.
    eapply IH; eauto.
Qed.
Lemma clauses_case : forall cs n lp off body l d, comp_clauses foldk is_call n lp off cs = Some (body, l, d) ->
  has_case cs = true -> l <> [].
Proof.
  induction cs as [|ls ss brk cs IH]; intros n lp off body l d E H; [discriminate|].
  destruct (clauses_inv _ _ _ _ _ _ _ _ _ _ E) as (c & l1 & d1 & body' & l' & d' & E1 & E2 & E3 & -> & -> & Hd).
  cbn [has_case] in H. apply orb_true_iff in H. intros Hn. apply app_eq_nil in Hn. destruct Hn as (N1 & N2).
  destruct H as [H | H]; [exact (labels_case _ _ _ _ E2 H N1) | exact (IH _ _ _ _ _ _ E3 H N2)].
Qed.
Lemma clauses_labels_nobc : forall cs n lp off body l d, comp_clauses foldk is_call n lp off cs = Some (body, l, d) ->
  Forall (fun p => nobc (fst p)) l.
Proof.
  induction cs as [|ls ss brk cs IH]; intros n lp off body l d E; [inversion E; constructor|].
  destruct (clauses_inv _ _ _ _ _ _ _ _ _ _ E) as (c & l1 & d1 & body' & l' & d' & E1 & E2 & E3 & -> & -> & Hd).
  apply Forall_app. split; [eapply labels_nobc; eauto | eapply IH; eauto].
Qed.

(** ** return, break, continue. *)
Lemma sim_return : forall n es c t bok kok, ok_args es = true -> comp_rets foldk es = Some c ->
  sim n (c ++ [Ret]) t bok kok (fun _ w =>
    Some (match eval_list S (rets_den S es) w with EOk vs w1 => ORet S vs w1 | EErr w1 => OErr S w1 end)).
Proof.
  intros n es c t bok kok Hok E C p b k f s w sc r HC Hl Er.
  assert (Hn : nobc (c ++ [Ret])).
  { apply nobc_app. split; [eapply rets_nobc; eauto|]. repeat constructor. }
  rewrite link_nobc in HC by exact Hn.
  apply code_at_app in HC. destruct HC as (HC1 & HC2). apply code_at_cons in HC2. destruct HC2 as (HN & _).
  pose proof (rets_ok es c Hok E C p s w sc HC1) as H.
  inversion Er; subst. destruct (eval_list S (rets_den S es) w) as [vs w1 | w1]; cbn [outc]; [|exact H].
  rewrite map_id in H.
  exists (St S (p + length c) (rev vs ++ s) w1 sc), s. split; [exact H|].
  split; [unfold step; cbn [pc sk wd scs]; rewrite HN; reflexivity|]. unfold td. auto.
Qed.
Lemma sim_break : forall n t kok, sim n [Jmp BreakMark 0] t true kok (fun _ w => Some (OBrk S w)).
Proof.
  intros n t kok C p b k f s w sc r HC Hl E. inversion E; subst. cbn [link] in HC.
  apply code_at_cons in HC. destruct HC as (HN & _). split; [reflexivity|]. exists s.
  split; [|unfold td; auto]. apply steps_one. eapply step_jmp; [exact HN | lia].
Qed.
Lemma sim_continue : forall n t bok, sim n [Jmp ContinueMark 0] t bok true (fun _ w => Some (OCont S w)).
Proof.
  intros n t bok C p b k f s w sc r HC Hl E. inversion E; subst. cbn [link] in HC.
  apply code_at_cons in HC. destruct HC as (HN & _). split; [reflexivity|]. exists s.
  split; [|unfold td; auto]. apply steps_one. eapply step_jmp; [exact HN | lia].
Qed.

(** ** Statements that produce code. *)
Lemma finish_ne : forall b c, c <> [] -> finish is_call b c <> [].
Proof.
  intros b c H. destruct (@exists_last _ c H) as (l & x & ->). rewrite finish_snoc.
  destruct (with_reset is_call x); [|destruct b]; intros H0; apply app_eq_nil in H0; destruct H0; discriminate.
Qed.
Lemma app_ne_l : forall A (a b : list A), a <> [] -> a ++ b <> [].
Proof. intros A a b H H0. apply app_eq_nil in H0. tauto. Qed.
Lemma app_ne_r : forall A (a b : list A), b <> [] -> a ++ b <> [].
Proof. intros A a b H H0. apply app_eq_nil in H0. tauto. Qed.
Lemma link_ne : forall b k i c, c <> [] -> link b k i c <> [].
Proof. intros b k i c H H0. apply (f_equal (@length _)) in H0. rewrite link_len in H0. destruct c; [auto | discriminate]. Qed.
Lemma emits_ne :
  (forall s, forall n lp sw c, emits s = true -> comp_stmt foldk is_call n lp sw s = Some c -> c <> []) /\
  (forall r : els, True) /\
  (forall bl, forall n lp sw i c, emits_block bl = true -> comp_block foldk is_call n lp sw i bl = Some c -> c <> []) /\
  (forall ss, forall n lp sw c, emits_stmts ss = true -> comp_stmts foldk is_call n lp sw ss = Some c -> c <> []) /\
  (forall cs, forall n lp off body l d, emits_clauses cs = true ->
     comp_clauses foldk is_call n lp off cs = Some (body, l, d) -> body <> []).
Proof.
  apply stmt_syntax_ind; try (intros; exact I); try (intros; discriminate).
  - intros [|e es] n lp sw c H E; [discriminate|]. cbn [comp_stmt] in E.
    destruct (comp_seq foldk (ECons e es)) as [c0|] eqn:E0; [|discriminate]. inversion E; subst.
    apply finish_ne. eapply seq_nonempty; eauto.
  - intros ls rs n lp sw c H E. cbn [comp_stmt] in E. unfold comp_multi in E.
    destruct (codes foldk rs) as [[|c0 cs]|]; try discriminate; destruct (comp_ltargets foldk ls) as [ct|]; try discriminate.
    destruct (_ || _ || _); [discriminate|].
    match type of E with Some ?x = _ => assert (Ec : c = x) by congruence end. rewrite Ec.
    apply app_ne_r, app_ne_r. discriminate.
  - intros x [e|] n lp sw c H E; [|discriminate]. cbn [comp_stmt comp_var] in E.
    destruct (comp_expr [] (var_expr x e)) as [c0|] eqn:E0; [|discriminate]. inversion E; subst.
    apply finish_ne. eapply expr_ne; eauto.
  - intros es n lp sw c H E. cbn [comp_stmt] in E. destruct (comp_rets foldk es) as [c0|]; [|discriminate].
    inversion E; subst. apply app_ne_r. discriminate.
  - intros b Hb n lp sw c H E. eapply Hb; eauto.
  - intros e b _ r _ n lp sw c H E. cbn [comp_stmt] in E.
    destruct (comp_expr [] e) as [cc|] eqn:Ee; [|discriminate].
    match type of E with match ?x with _ => _ end = _ => destruct x as [cb|]; [|discriminate] end.
    match type of E with match ?x with _ => _ end = _ => destruct x as [cr|]; [|discriminate] end.
    inversion E; subst. apply expr_ne in Ee. destruct cr; apply app_ne_l; exact Ee.
  - intros e b _ n lp sw c H E. cbn [comp_stmt] in E.
    destruct (comp_expr [] e) as [cc|] eqn:Ee; [|discriminate].
    match type of E with match ?x with _ => _ end = _ => destruct x as [cb|]; [|discriminate] end.
    inversion E; subst. apply expr_ne in Ee. apply link_ne, app_ne_l; exact Ee.
  - intros b _ e n lp sw c H E. cbn [comp_stmt] in E.
    destruct (comp_expr [] e) as [cc|] eqn:Ee; [|discriminate].
    match type of E with match ?x with _ => _ end = _ => destruct x as [cb|]; [|discriminate] end.
    inversion E; subst. apply link_ne, app_ne_r, app_ne_r. discriminate.
  - intros z init oe post b _ n lp sw c H E. cbn [comp_stmt] in E.
    destruct (comp_init foldk is_call init) as [ci|]; [|discriminate].
    match type of E with match ?x with _ => _ end = _ => destruct x as [cb|]; [|discriminate] end.
    destruct (comp_seq foldk post) as [cp|]; [|discriminate]. cbv zeta in E.
    assert (Hf : forall wrap cic, for_code z wrap ci cic cb (finish is_call false cp) <> []).
    { intros wrap cic. unfold for_code. cbv zeta. destruct wrap; [discriminate|].
      destruct cic; apply link_ne; repeat apply app_ne_r; discriminate. }
    destruct oe as [e|]; [destruct (comp_expr ci e)|]; inversion E; subst; apply Hf.
  - intros z xs it a b _ n lp sw c H E. cbn [comp_stmt] in E. sub E ca E1. sub E cb E2.
    destruct (it_const ca); inversion E; subst. discriminate.
  - intros n lp sw c _ E. cbn [comp_stmt] in E. destruct (lp || sw); inversion E; subst; discriminate.
  - intros n lp sw c _ E. cbn [comp_stmt] in E. destruct lp; inversion E; subst; discriminate.
  - intros z ss Hss n lp sw i c H E. cbn [comp_block] in E.
    destruct (10 <=? n)%nat; [discriminate|].
    match type of E with match ?x with _ => _ end = _ => destruct x as [c0|] eqn:E0; [|discriminate] end.
    cbn [emits_block] in H. destruct (decl_stmts ss || i) eqn:Ed; inversion E; subst; [discriminate|].
    apply orb_false_iff in Ed. destruct Ed as (Ed & _). rewrite Ed in H. eapply Hss; eauto.
  - intros s Hs ss Hss n lp sw c H E. cbn [comp_stmts] in E. cbn [emits_stmts] in H.
    match type of E with match ?x with _ => _ end = _ => destruct x as [c1|] eqn:E1; [|discriminate] end.
    match type of E with match ?x with _ => _ end = _ => destruct x as [c2|] eqn:E2; [|discriminate] end.
    inversion E; subst. apply orb_true_iff in H. destruct H as [H | H].
    + apply app_ne_l. eapply Hs; eauto.
    + apply app_ne_r. eapply Hss; eauto.
  - intros ls ss Hss brk cs Hcs n lp off body l d H E.
    destruct (clauses_inv _ _ _ _ _ _ _ _ _ _ E) as (c & l1 & d1 & body' & l' & d' & E1 & E2 & E3 & -> & -> & Hd).
    cbn [emits_clauses] in H. apply orb_true_iff in H. destruct H as [H | H].
    + apply app_ne_l. pose proof (Hss _ _ _ _ H E1) as Hc. unfold clause_code.
      destruct brk; [destruct cs; [exact Hc | apply app_ne_l; exact Hc] | exact Hc].
    + apply app_ne_r. eapply Hcs; eauto.
Qed.

(** ** The main theorem. *)
Definition csim (n : nat) (lp kok : bool) (off : Z) (cs : clauses) (body : code) : Prop :=
  forall C p k f s w sc j r,
    code_at C p (link (Z.of_nat (p + length body)) (Z.of_nat k) (Z.of_nat p) body) -> (length sc <= n)%nat ->
    exec_clauses S cs j f w = Some r ->
    forall b, outc C (St S (p + Z.to_nat (clause_off n lp off cs j - off)) s w sc) (tidy_clauses is_call cs) sc
      (p + length body) b k false kok r.
Lemma sim_switch : forall n lp e cs bok kok ce body l d, ok_expr e = true -> has_case cs = true ->
  emits_clauses cs = true -> ok_clauses foldk good kok cs = true ->
  comp_expr [] e = Some ce -> comp_clauses foldk is_call n lp 0 cs = Some (body, l, d) ->
  csim n lp kok 0 cs body ->
  sim n (switch_code ce body l d) (match default_at 0 cs with Some _ => tidy_clauses is_call cs | None => false end)
    bok kok (exec_stmt S (SSwitch e cs)).
Proof.
  intros n lp e cs bok kok ce body l d Oe Hcase Hem Okc Ee Ec HC C p b k f s w sc r HC0 Hl Er.
  pose proof (clauses_case _ _ _ _ _ _ _ Ec Hcase) as Hl0.
  pose proof (proj2 (proj2 (proj2 (proj2 emits_ne))) cs n lp 0 body l d Hem Ec) as Hb0.
  set (last := match d with Some off => JmpCase (off + 1) | None => Jmp NoMark (zlen body + 1) end).
  set (c := ce ++ header (header_len l) l ++ [last] ++ body).
  assert (Esw : switch_code ce body l d = link_break (zlen c) 0 c).
  { unfold switch_code. destruct body; [contradiction|]. destruct l; [contradiction|]. reflexivity. }
  rewrite Esw in *. rewrite link_break_len in *.
  replace (link (Z.of_nat b) (Z.of_nat k) (Z.of_nat p) (link_break (zlen c) 0 c))
    with (link (Z.of_nat (p + length c)) (Z.of_nat k) (Z.of_nat p) c) in HC0.
  2:{ rewrite <- (Z.add_0_l (Z.of_nat p)) at 2. rewrite link_after_break.
      unfold zlen. rewrite Nat2Z.inj_add, (Z.add_comm (Z.of_nat p)), Z.add_0_l. reflexivity. }
  assert (Hlen : zlen c = zlen ce + header_len l + zlen body).
  { unfold c. pose proof (header_length l (header_len l)) as Hh. unfold zlen in *. rewrite !app_length. cbn [length]. lia. }
  assert (Hh : nobc (header (header_len l) l)) by (apply header_nobc; eapply clauses_labels_nobc; eauto).
  assert (Hce : nobc ce) by (eapply expr_nobc; eauto).
  unfold c in HC0 at 2. rewrite !link_app in HC0. rewrite (link_nobc ce), (link_nobc (header _ _)) in HC0 by assumption.
  apply code_at_app in HC0. destruct HC0 as (HC1 & HC2).
  apply code_at_app in HC2. destruct HC2 as (HC2 & HC3).
  apply code_at_app in HC3. destruct HC3 as (HC3 & HC4).
  set (q := (p + length ce)%nat) in *.
  set (ql := (q + length (header (header_len l) l))%nat) in *.
  assert (Hql : Z.of_nat ql = Z.of_nat q + header_len l - 1).
  { pose proof (header_length l (header_len l)) as Hx. unfold ql. unfold zlen in Hx. lia. }
  rewrite link_len in HC4. cbn [length] in HC4.
  replace (Z.of_nat p + zlen ce + zlen (header (header_len l) l) + zlen [last]) with (Z.of_nat (ql + 1)) in HC4
    by (unfold ql, q, zlen; cbn [length]; lia).
  assert (Hend : (p + length c = ql + 1 + length body)%nat).
  { pose proof (header_len_pos l). unfold zlen in Hlen. unfold q in *. lia. }
  rewrite Hend in *.
  assert (HNl : nth_error C ql = Some last).
  { replace (link (Z.of_nat (ql + 1 + length body)) (Z.of_nat k)
       (Z.of_nat p + zlen ce + zlen (header (header_len l) l)) [last]) with [last] in HC3
      by (unfold last; destruct d; reflexivity).
    apply code_at_cons in HC3. exact (proj1 HC3). }
  pose proof (expr_ok e ce Oe Ee C p s w sc HC1) as H1.
  change (exec_stmt S (SSwitch e cs) f w) with
    (match eval_expr S e w with
      | EErr w1 => Some (OErr S w1)
      | EOk v w1 =>
          match select S 0 cs v w1 with
          | EErr w2 => Some (OErr S w2)
          | EOk o w2 =>
              match (match o with Some k => Some k | None => default_at 0 cs end) with
              | None => Some (ONorm S w2)
              | Some k => exec_clauses S cs k f w2
              end
          end
      end) in Er.
  destruct (eval_expr S e w) as [v w1 | w1]; [|inversion Er; subst; exact H1].
  pose proof (clauses_scan cs kok n lp 0 body l d (Z.le_refl 0) Okc Ec 0 C q (Z.of_nat q + header_len l) HC2 eq_refl v s w1 sc) as H2.
  pose proof (default_off cs n lp 0 body l d 0 Ec) as Hd.
  assert (Hpos : forall j, Z.to_nat (Z.of_nat q + header_len l + clause_off n lp 0 cs j)
                  = (ql + 1 + Z.to_nat (clause_off n lp 0 cs j - 0))%nat).
  { intros j. pose proof (clause_off_le cs n lp 0 j). lia. }
  destruct (select S 0 cs v w1) as [[j|] w2 | w2].
  - destruct H2 as (_ & H2). rewrite Nat.sub_0_r, Hpos in H2.
    eapply outc_steps; [eapply steps_trans; [exact H1 | exact H2] | unfold td; auto |].
    eapply outc_weaken; [| | |eapply (HC C (ql + 1)%nat k f [] w2 sc j r HC4 Hl Er b)]; auto.
    destruct (default_at 0 cs); auto; discriminate. discriminate.
  - destruct H2 as (q' & H2 & Hq). assert (q' = ql) by lia. subst q'.
    destruct (default_at 0 cs) as [j|].
    + destruct Hd as (_ & Hd). rewrite Nat.sub_0_r in Hd.
      eapply outc_steps;
        [eapply steps_trans; [exact H1 | eapply steps_trans; [exact H2 | apply steps_one]] | |
         eapply outc_weaken; [| | |eapply (HC C (ql + 1)%nat k f [] w2 sc j r HC4 Hl Er b)]; auto; discriminate].
      * unfold last in HNl. rewrite Hd in HNl. eapply step_jmpcase; [exact HNl|].
        pose proof (clause_off_le cs n lp 0 j). lia.
      * unfold td; auto.
    + inversion Er; subst r. exists (inl v :: s). split; [|unfold td; discriminate].
      eapply steps_trans; [exact H1 | eapply steps_trans; [exact H2 | apply steps_one]].
      unfold last in HNl. rewrite Hd in HNl. eapply step_jmp; [exact HNl|]. unfold zlen. lia.
  - inversion Er; subst r. eapply fails_trans; [exact H1 | exact H2].
Qed.

Lemma loop_ext : forall (cond : W S -> ev (W S) bool) (x y : sden S) (post : W S -> ev (W S) unit),
  (forall f w, x f w = y f w) -> forall f w, loop S cond x post f w = loop S cond y post f w.
Proof.
  intros cond x y post H. induction f as [|f IH]; intros w; [reflexivity|]. cbn [loop].
  destruct (cond w) as [[|] w1 | w1]; try reflexivity. rewrite H.
  destruct (y f w1) as [[w2|w2|w2|vs w2|w2]|]; try reflexivity; destruct (post w2); auto.
Qed.
Lemma do_loop_ext : forall (cond : W S -> ev (W S) bool) (x y : sden S),
  (forall f w, x f w = y f w) -> forall f w, do_loop S x cond f w = do_loop S y cond f w.
Proof.
  intros cond x y H. induction f as [|f IH]; intros w; [reflexivity|]. cbn [do_loop]. rewrite H.
  destruct (y f w) as [[w2|w2|w2|vs w2|w2]|]; try reflexivity; destruct (cond w2) as [[|] w3|w3]; auto.
Qed.

Definition Ps (s : stmt) := forall n lp sw c bok kok, ok_stmt foldk good bok kok s = true ->
  comp_stmt foldk is_call n lp sw s = Some c -> sim n c (tidy_stmt is_call s) bok kok (exec_stmt S s).
Definition Pr (r : els) := forall n lp sw cr bok kok, ok_els foldk good bok kok r = true ->
  comp_els foldk is_call n lp sw r = Some cr ->
  match cr with
  | None => forall f w, exec_els S r f w = Some (ONorm S w)
  | Some c => sim n c (tidy_els is_call r) bok kok (exec_els S r)
  end.
Definition Pb (bl : block) :=
  (forall n lp sw c bok kok, ok_block foldk good bok kok false bl = true ->
    comp_block foldk is_call n lp sw false bl = Some c ->
    sim n c (tidy_block is_call bl) bok kok (exec_block S false bl)) /\
  (forall n lp sw c bok kok, ok_block foldk good bok kok true bl = true ->
    comp_block foldk is_call n lp sw true bl = Some c ->
    exists z c0 x, (n < 10)%nat /\ c = body_code z c0 /\ sim (Datatypes.S n) c0 (tidy_block is_call bl) true true x /\
      forall f w, exec_block S true bl f w = leaving S z (x f w)).
Definition Pss (ss : stmts) := forall n lp sw c bok kok, ok_stmts foldk good bok kok ss = true ->
  comp_stmts foldk is_call n lp sw ss = Some c -> sim n c (tidy_stmts is_call ss) bok kok (exec_stmts S ss).
Definition Pc (cs : clauses) := forall n lp kok off body l d, ok_clauses foldk good kok cs = true ->
  comp_clauses foldk is_call n lp off cs = Some (body, l, d) -> csim n lp kok off cs body.


Theorem statements_correct :
  (forall s, Ps s) /\ (forall r, Pr r) /\ (forall b, Pb b) /\ (forall ss, Pss ss) /\ (forall cs, Pc cs).
Proof.
  apply stmt_syntax_ind.
  - intros n lp sw c bok kok Ok E. inversion E; subst. apply sim_nil.
  - intros es n lp sw c bok kok Ok E. cbn [comp_stmt] in E. sub E c0 E0. inversion E; subst.
    eapply sim_ext; [intros; reflexivity|]. apply (sim_runs n _ bok kok unit _ (exec_seq S es)).
    + apply finish_nobc. eapply seq_nobc; eauto.
    + apply seq_ok; assumption.
  - intros ls rs n lp sw c bok kok Ok E.
    apply (sim_runs n _ bok kok unit _ (exec_multi S ls rs)); [eapply multi_nobc; eauto|].
    eapply runs_weaken; [|eapply multi_ok; eauto]. intros s0 s1 He _ _. exact He.
  - intros x oe n lp sw c bok kok Ok E.
    apply (sim_runs n _ bok kok unit _ (exec_var S x oe)); [eapply var_nobc; eauto|]. eapply var_ok; eauto.
  - intros es n lp sw c bok kok Ok E. cbn [comp_stmt] in E. sub E c0 E0. inversion E; subst.
    apply (sim_return n es c0 _ bok kok Ok E0).
  - intros b (Hb & _) n lp sw c bok kok Ok E. eapply Hb; eauto.
  - intros e b (Hb & _) r Hr n lp sw c bok kok Ok E. cbn [comp_stmt] in E.
    sub E cc E1. sub E cb E2. sub E cr E3. inversion E; subst.
    cbn [ok_stmt] in Ok. rewrite !andb_true_iff in Ok. destruct Ok as ((O1 & O2) & O3).
    apply (sim_if n e cc cb cr (tidy_block is_call b) (tidy_els is_call r) bok kok _ _ O1 E1).
    + eapply Hb; eauto.
    + exact (Hr n lp sw cr bok kok O3 E3).
  - intros e b (_ & Hb) n lp sw c bok kok Ok E. cbn [comp_stmt] in E. sub E cc E1. sub E cb E2. inversion E; subst.
    cbn [ok_stmt] in Ok. rewrite !andb_true_iff in Ok. destruct Ok as (O1 & O2).
    destruct (Hb n true sw cb bok kok O2 E2) as (z & c0 & x & Hn & -> & Hs & Hx).
    eapply sim_ext; [|exact (sim_while n e cc z c0 _ x Hn O1 E1 Hs bok kok)].
    intros f w. symmetry. apply loop_ext. exact Hx.
  - intros b (_ & Hb) e n lp sw c bok kok Ok E. cbn [comp_stmt] in E. sub E cc E1. sub E cb E2. inversion E; subst.
    cbn [ok_stmt] in Ok. rewrite !andb_true_iff in Ok. destruct Ok as (O1 & O2).
    destruct (Hb n true sw cb bok kok O2 E2) as (z & c0 & x & Hn & -> & Hs & Hx).
    eapply sim_ext; [|exact (sim_do n e cc z c0 _ x Hn O1 E1 Hs bok kok)].
    intros f w. symmetry. apply do_loop_ext. exact Hx.
  - intros z init oe post b (_ & Hb) n lp sw c bok kok Ok E. cbn [comp_stmt] in E.
    sub E ci E1. sub E cb E2. sub E cp E3. cbv zeta in E.
    cbn [ok_stmt] in Ok. rewrite !andb_true_iff in Ok. destruct Ok as (((O1 & O2) & O3) & O4).
    destruct (Hb (Datatypes.S n) true sw cb bok kok O3 E2) as (zb & c0 & x & Hn & -> & Hs & Hx).
    set (wrap := match init with FiVars _ => true | _ => false end) in E.
    assert (Hc : exists cic, c = for_code z wrap ci cic (body_code zb c0) (finish is_call false cp) /\
      match oe with
      | Some e => ok_expr e = true /\ exists c1, comp_expr [] e = Some c1 /\ cic = Some (ci ++ c1)
      | None => ci = [] /\ cic = None
      end).
    { destruct oe as [e|].
      - sub E c1 E4. inversion E; subst. apply andb_true_iff in O4. destruct O4 as (O4 & O5).
        exists (Some c1). split; [reflexivity|]. split; [exact O4|].
        assert (Ha : accok ci).
        { destruct init as [|vs|es]; cbn [comp_init] in E1.
          - inversion E1; subst. left. reflexivity.
          - eapply vars_accok; eauto.
          - sub E1 c3 E5. inversion E1; subst. eapply settled_accok; eauto. }
        rewrite (proj1 (shape_expr foldk e) ci Ha) in E4.
        destruct (comp_expr [] e) as [c3|]; [|discriminate]. exists c3. split; [reflexivity|].
        cbn [option_map] in E4. congruence.
      - inversion E; subst. exists None. split; [reflexivity|]. split; [eapply idle_nil; eauto | reflexivity]. }
    destruct Hc as (cic & -> & Hc).
    eapply sim_ext; [|eapply sim_weaken; [apply le_n | | | |
      exact (sim_for_stmt n wrap oe ci cic zb c0 (finish is_call false cp) (tidy_block is_call b) (tidy_seq is_call false post)
        (tidy_init is_call init) x (exec_seq S post) (exec_init init) Hn Hc Hs
        (finish_nobc _ _ (seq_nobc _ _ E3)) (seq_ok _ _ _ O2 E3) (init_nobc _ _ E1) (init_ok _ _ O1 E1) z bok kok)]];
      auto.
    intros f w. cbn [exec_stmt].
    destruct init as [|vs|es]; cbn [wrap exec_init of_unit then_]; cbv zeta; unfold wrap; cbn match.
    + symmetry. apply loop_ext. exact Hx.
    + destruct (exec_vars S vs w) as [[] w1|w1]; cbn [of_unit then_]; [|reflexivity].
      f_equal. symmetry. apply loop_ext. exact Hx.
    + destruct (exec_seq S es w) as [[] w1|w1]; cbn [of_unit then_]; [|reflexivity].
      symmetry. apply loop_ext. exact Hx.
  - intros z xs it a b (_ & Hb) n lp sw c bok kok Ok E. cbn [comp_stmt] in E. sub E ca E1. sub E cb E2.
    destruct (it_const ca); inversion E; subst.
    cbn [ok_stmt] in Ok. rewrite !andb_true_iff in Ok. destruct Ok as ((O1 & O2) & O3).
    destruct (Hb (Datatypes.S n) true sw cb bok kok O3 E2) as (zb & c0 & x & Hn & -> & Hs & Hx).
    apply Nat.ltb_lt in O1.
    eapply sim_ext; [|exact (sim_forin n z xs it a ca zb c0 _ x Hn O1 O2 E1 Hs bok kok)].
    intros f w. cbn [exec_stmt]. f_equal.
    destruct (ebind (eval_operand S a w) _) as [u w1|w1]; cbn [of_unit then_]; [|reflexivity].
    symmetry. apply loop_ext. intros f1 w2. destruct (fetch S xs it w2); cbn [of_unit then_]; [apply Hx | reflexivity].
  - intros e cs Hcs n lp sw c bok kok Ok E. cbn [comp_stmt] in E. sub E ce E1.
    match type of E with match ?x with _ => _ end = _ => destruct x as [((body, l), d)|] eqn:E2; [|discriminate] end.
    inversion E; subst. cbn [ok_stmt] in Ok. rewrite !andb_true_iff in Ok. destruct Ok as (((O1 & O2) & O3) & O4).
    exact (sim_switch n lp e cs bok kok ce body l d O1 O2 O3 O4 E1 E2 (Hcs n lp kok 0 body l d O4 E2)).
  - intros n lp sw c bok kok Ok E. cbn [comp_stmt] in E. destruct (lp || sw); inversion E; subst.
    cbn [ok_stmt] in Ok. subst bok. apply sim_break.
  - intros n lp sw c bok kok Ok E. cbn [comp_stmt] in E. destruct lp; inversion E; subst.
    cbn [ok_stmt] in Ok. subst kok. apply sim_continue.
  - intros n lp sw cr bok kok Ok E. inversion E; subst. reflexivity.
  - intros b (Hb & _) n lp sw cr bok kok Ok E. cbn [comp_els] in E. sub E c E1. inversion E; subst. eapply Hb; eauto.
  - intros e b (Hb & _) r Hr n lp sw cr0 bok kok Ok E. cbn [comp_els] in E.
    sub E cc E1. sub E cb E2. sub E cr E3. inversion E; subst.
    cbn [ok_els] in Ok. rewrite !andb_true_iff in Ok. destruct Ok as ((O1 & O2) & O3).
    apply (sim_if n e cc cb cr (tidy_block is_call b) (tidy_els is_call r) bok kok _ _ O1 E1).
    + eapply Hb; eauto.
    + exact (Hr n lp sw cr bok kok O3 E3).
  - intros z ss Hss. split.
    + intros n lp sw c bok kok Ok E. cbn [comp_block] in E. cbn [ok_block] in Ok.
      destruct (Nat.leb_spec 10 n); [discriminate|]. sub E c0 E0. rewrite orb_false_r in E.
      eapply sim_ext with (x := fun f w => if decl_stmts ss then leaving S z (exec_stmts S ss f w) else exec_stmts S ss f w).
      { intros f w. cbn [exec_block]. rewrite orb_false_r. reflexivity. }
      cbn [tidy_block]. destruct (decl_stmts ss); inversion E; subst.
      * apply sim_block; [assumption|]. eapply Hss; eauto.
      * eapply sim_weaken; [| | | |eapply Hss; eauto]; auto.
    + intros n lp sw c bok kok Ok E. cbn [comp_block] in E. cbn [ok_block] in Ok.
      destruct (Nat.leb_spec 10 n); [discriminate|]. sub E c0 E0. rewrite orb_true_r in E. inversion E; subst.
      exists z, c0, (exec_stmts S ss). split; [assumption|]. split; [reflexivity|].
      split; [eapply Hss; eauto|]. intros f w. cbn [exec_block]. rewrite orb_true_r. reflexivity.
  - intros n lp sw c bok kok Ok E. inversion E; subst. apply sim_nil.
  - intros s Hs ss Hss n lp sw c bok kok Ok E. cbn [comp_stmts] in E. sub E c1 E1. sub E c2 E2. inversion E; subst.
    cbn [ok_stmts] in Ok. apply andb_true_iff in Ok. destruct Ok as (O1 & O2).
    apply (sim_seq n c1 c2 (tidy_stmt is_call s) (tidy_stmts is_call ss) bok kok (exec_stmt S s) (exec_stmts S ss)).
    + eapply Hs; eauto.
    + eapply Hss; eauto.
  - intros n lp kok off body l d Ok E. inversion E; subst.
    intros C p k f s w sc j r HC Hl Er b. cbn [exec_clauses] in Er. inversion Er; subst.
    exists s. cbn [clause_off length]. rewrite Z.sub_diag. cbn [Z.to_nat]. rewrite !Nat.add_0_r. split; [constructor | unfold td; auto].
  - intros ls ss Hss brk cs Hcs n lp kok off body l d Ok E.
    destruct (clauses_inv _ _ _ _ _ _ _ _ _ _ E) as (c & l1 & d1 & body' & l' & d' & E1 & E2 & E3 & -> & -> & Hd).
    cbn [ok_clauses] in Ok. rewrite !andb_true_iff in Ok. destruct Ok as ((_ & O1) & O2).
    intros C p k f s w sc j r HC Hl Er b.
    rewrite link_app in HC. apply code_at_app in HC. destruct HC as (HC1 & HC2). rewrite link_len in HC2.
    unfold zlen in HC2. rewrite <- Nat2Z.inj_add in HC2. rewrite app_length, Nat.add_assoc in HC2.
    pose proof (Hcs n lp kok _ body' l' d' O2 E3 C (p + length (clause_code brk cs c))%nat k f) as Hrest.
    rewrite app_length, Nat.add_assoc.
    assert (Htail : forall s0 w0 j0 r0, exec_clauses S cs j0 f w0 = Some r0 ->
      outc C (St S (p + length (clause_code brk cs c) + Z.to_nat (clause_off n lp (off + zlen (clause_code brk cs c)) cs j0
          - (off + zlen (clause_code brk cs c)))) s0 w0 sc)
        (tidy_clauses is_call (CCons ls ss brk cs)) sc (p + length (clause_code brk cs c) + length body') b k false kok r0).
    { intros s0 w0 j0 r0 E0. eapply outc_weaken; [| | |exact (Hrest s0 w0 sc j0 r0 HC2 Hl E0 b)]; auto.
      cbn [tidy_clauses]. intros Ht. apply andb_true_iff in Ht. tauto. }
    destruct j as [|j].
    + cbn [clause_off]. rewrite Z.sub_diag, Nat.add_0_r.
      assert (HCc : code_at C p (link (Z.of_nat (p + length (clause_code brk cs c) + length body')) (Z.of_nat k) (Z.of_nat p) c)).
      { unfold clause_code in HC1 at 2. destruct brk; [|rewrite app_length, Nat.add_assoc in HC1; exact HC1].
        destruct cs; [rewrite app_length, Nat.add_assoc in HC1; exact HC1|].
        rewrite link_app in HC1. apply code_at_app in HC1. rewrite app_length, Nat.add_assoc in HC1. exact (proj1 HC1). }
      change (exec_clauses S (CCons ls ss brk cs) 0 f w) with
        (match exec_stmts S ss f w with
          | Some (ONorm _ w1) => if brk then Some (ONorm S w1) else exec_clauses S cs O f w1
          | Some (OBrk _ w1) => Some (ONorm S w1)
          | r => r
          end) in Er.
      destruct (exec_stmts S ss f w) as [r1|] eqn:Ess; [|discriminate].
      pose proof (Hss n lp true c true kok O1 E1 C p _ k f s w sc r1 HCc Hl Ess) as H1.
      assert (Hw : tidy_clauses is_call (CCons ls ss brk cs) = true -> tidy_stmts is_call ss = true).
      { cbn [tidy_clauses]. intros Ht. apply andb_true_iff in Ht. tauto. }
      destruct r1 as [w1|w1|w1|vs w1|w1]; cbn [outc sk] in H1.
      * destruct H1 as (s1 & H1 & Ht). destruct brk.
        -- inversion Er; subst r. unfold clause_code in *. destruct cs as [|ls2 ss2 brk2 cs2].
           ++ inversion E3; subst body'. exists s1. cbn [length]. rewrite Nat.add_0_r.
              split; [exact H1 | unfold td in *; auto].
           ++ exists s1. split; [|unfold td in *; auto].
              eapply steps_trans; [exact H1 | apply steps_one].
              rewrite link_app in HC1. apply code_at_app in HC1. destruct HC1 as (_ & HC1). rewrite link_len in HC1.
              cbn [link] in HC1. apply code_at_cons in HC1. destruct HC1 as (HN & _).
              eapply step_jmp; [exact HN|]. unfold zlen. rewrite !app_length. lia.
        -- specialize (Htail s1 w1 O r Er).
           eapply outc_steps; [exact H1 | unfold td in *; auto |].
           assert (Ez : clause_off n lp (off + zlen (clause_code false cs c)) cs 0 = off + zlen (clause_code false cs c))
             by (destruct cs; reflexivity).
           rewrite Ez, Z.sub_diag, Nat.add_0_r in Htail. exact Htail.
      * inversion Er; subst r. destruct H1 as (_ & s1 & H1 & Ht). exists s1. split; [exact H1 | unfold td in *; auto].
      * inversion Er; subst r. destruct H1 as (Hk & s1 & H1 & Ht). split; [exact Hk|]. exists s1. split; [exact H1 | unfold td in *; auto].
      * inversion Er; subst r. destruct H1 as (s2 & g & H1 & H2 & Ht). exists s2, g. split; [exact H1|]. split; [exact H2|]. unfold td in *; auto.
      * inversion Er; subst r. exact H1.
    + cbn [clause_off]. rewrite E1.
      change (exec_clauses S (CCons ls ss brk cs) (Datatypes.S j) f w) with (exec_clauses S cs j f w) in Er.
      specialize (Htail s w j r Er).
      pose proof (clause_off_le cs n lp (off + zlen (clause_code brk cs c)) j) as Hle.
      replace (p + Z.to_nat (clause_off n lp (off + zlen (clause_code brk cs c)) cs j - off))%nat with
        (p + length (clause_code brk cs c) + Z.to_nat (clause_off n lp (off + zlen (clause_code brk cs c)) cs j
          - (off + zlen (clause_code brk cs c))))%nat; [exact Htail|]. unfold zlen in *. lia.
Qed.

(** ** Marks left for an enclosing loop. *)
Definition marks (bok kok : bool) (c : code) : Prop :=
  Forall (fun i => match i with
                   | Jmp BreakMark _ => bok = true
                   | Jmp ContinueMark _ => kok = true
                   | _ => True
                   end) c.
Lemma marks_app : forall bok kok a c, marks bok kok (a ++ c) <-> marks bok kok a /\ marks bok kok c.
Proof. intros. apply Forall_app. Qed.
Lemma nobc_marks : forall bok kok c, nobc c -> marks bok kok c.
Proof.
  intros bok kok c H. eapply Forall_impl; [|exact H]. intros i Hi. destruct i; try exact I.
  destruct m; try exact I; contradiction.
Qed.
Lemma marks_nobc : forall c, marks false false c -> nobc c.
Proof.
  intros c H. eapply Forall_impl; [|exact H]. intros i Hi. destruct i; try exact I.
  destruct m; try exact I; discriminate.
Qed.
Lemma marks_le : forall b k b' k' c, (b = true -> b' = true) -> (k = true -> k' = true) ->
  marks b k c -> marks b' k' c.
Proof.
  intros b k b' k' c Hb Hk H. eapply Forall_impl; [|exact H]. intros i Hi. destruct i; auto. destruct m; auto.
Qed.
Lemma link_break_marks : forall c z i kok, marks true kok c -> marks false kok (link_break z i c).
Proof.
  induction c as [|x c IH]; intros z i kok H; [constructor|]. inversion H; subst.
  destruct x; try (constructor; [exact I | apply IH; assumption]).
  destruct m; (constructor; [first [exact I | assumption] | apply IH; assumption]).
Qed.

Lemma statements_marks :
  (forall s n lp sw c bok kok, ok_stmt foldk good bok kok s = true ->
     comp_stmt foldk is_call n lp sw s = Some c -> marks bok kok c) /\
  (forall r n lp sw cr bok kok, ok_els foldk good bok kok r = true ->
     comp_els foldk is_call n lp sw r = Some cr -> match cr with None => True | Some c => marks bok kok c end) /\
  (forall bl n lp sw c bok kok, ok_block foldk good bok kok false bl = true ->
     comp_block foldk is_call n lp sw false bl = Some c -> marks bok kok c) /\
  (forall ss n lp sw c bok kok, ok_stmts foldk good bok kok ss = true ->
     comp_stmts foldk is_call n lp sw ss = Some c -> marks bok kok c) /\
  (forall cs n lp kok off body l d, ok_clauses foldk good kok cs = true ->
     comp_clauses foldk is_call n lp off cs = Some (body, l, d) -> marks true kok body).
Proof.
  assert (Hif : forall bok kok cc cb cr, nobc cc -> marks bok kok cb ->
     match cr with None => True | Some c => marks bok kok c end -> marks bok kok (if_code cc cb cr)).
  { intros bok kok cc cb cr H1 H2 H3. destruct cr; repeat (apply marks_app; split); auto;
      try (apply nobc_marks; assumption); repeat constructor. }
  apply stmt_syntax_ind.
  - intros n lp sw c bok kok Ok E. inversion E; subst. constructor.
  - intros es n lp sw c bok kok Ok E. cbn [comp_stmt] in E. sub E c0 E0. inversion E; subst.
    apply nobc_marks, finish_nobc. eapply seq_nobc; eauto.
  - intros ls rs n lp sw c bok kok Ok E. apply nobc_marks. eapply multi_nobc; eauto.
  - intros x oe n lp sw c bok kok Ok E. apply nobc_marks. eapply var_nobc; eauto.
  - intros es n lp sw c bok kok Ok E. cbn [comp_stmt] in E. sub E c0 E0. inversion E; subst.
    apply nobc_marks, nobc_app. split; [eapply rets_nobc; eauto | repeat constructor].
  - intros b Hb n lp sw c bok kok Ok E. eapply Hb; eauto.
  - intros e b Hb r Hr n lp sw c bok kok Ok E. cbn [comp_stmt] in E. sub E cc E1. sub E cb E2. sub E cr E3. inversion E; subst.
    cbn [ok_stmt] in Ok. rewrite !andb_true_iff in Ok. destruct Ok as ((O1 & O2) & O3).
    apply Hif; [eapply expr_nobc; eauto | eapply Hb; eauto | exact (Hr n lp sw cr bok kok O3 E3)].
  - intros e b _ n lp sw c bok kok Ok E. cbn [comp_stmt] in E. sub E cc E1. sub E cb E2. inversion E; subst.
    apply nobc_marks, link_unmarks.
  - intros b _ e n lp sw c bok kok Ok E. cbn [comp_stmt] in E. sub E cc E1. sub E cb E2. inversion E; subst.
    apply nobc_marks, link_unmarks.
  - intros z init oe post b _ n lp sw c bok kok Ok E. cbn [comp_stmt] in E.
    sub E ci E1. sub E cb E2. sub E cp E3. cbv zeta in E.
    assert (Hf : forall wrap cic cp0, marks bok kok (for_code z wrap ci cic cb cp0)).
    { intros wrap cic cp0. apply nobc_marks. unfold for_code. cbv zeta. destruct wrap.
      - apply nobc_app. split; [repeat constructor|]. apply nobc_app. split; [apply link_unmarks | repeat constructor].
      - apply link_unmarks. }
    destruct oe as [e|]; [sub E c1 E4|]; inversion E; subst; apply Hf.
  - intros z xs it a b _ n lp sw c bok kok Ok E. cbn [comp_stmt] in E. sub E ca E1. sub E cb E2.
    destruct (it_const ca); inversion E; subst. apply nobc_marks. unfold forin_code.
    apply nobc_app. split; [repeat constructor|]. apply nobc_app. split.
    + apply nobc_app. split; [apply ex_nobc; eapply ex_operand; eauto | repeat constructor].
    + apply nobc_app. split; [apply link_unmarks | repeat constructor].
  - intros e cs Hcs n lp sw c bok kok Ok E. cbn [comp_stmt] in E. sub E ce E1.
    match type of E with match ?x with _ => _ end = _ => destruct x as [((body, l), d)|] eqn:E2; [|discriminate] end.
    inversion E; subst. cbn [ok_stmt] in Ok. rewrite !andb_true_iff in Ok. destruct Ok as (((O1 & O2) & O3) & O4).
    pose proof (clauses_case _ _ _ _ _ _ _ E2 O2) as Hl0.
    pose proof (proj2 (proj2 (proj2 (proj2 emits_ne))) cs n lp 0 body l d O3 E2) as Hb0.
    specialize (Hcs n lp kok 0 body l d O4 E2).
    assert (Hh : nobc (header (header_len l) l)) by (apply header_nobc; eapply clauses_labels_nobc; eauto).
    assert (Hce : nobc ce) by (eapply expr_nobc; eauto).
    unfold switch_code. destruct body; [contradiction|]. destruct l; [contradiction|]. cbv zeta.
    eapply marks_le; [| |apply link_break_marks with (kok := kok)]; [discriminate | auto |].
    apply marks_app. split; [apply nobc_marks; exact Hce|].
    apply marks_app. split; [apply nobc_marks; exact Hh|].
    apply marks_app. split; [|exact Hcs]. destruct d; repeat constructor.
  - intros n lp sw c bok kok Ok E. cbn [comp_stmt] in E. destruct (lp || sw); inversion E; subst.
    repeat constructor. exact Ok.
  - intros n lp sw c bok kok Ok E. cbn [comp_stmt] in E. destruct lp; inversion E; subst.
    repeat constructor. exact Ok.
  - intros n lp sw cr bok kok Ok E. inversion E; subst. exact I.
  - intros b Hb n lp sw cr bok kok Ok E. cbn [comp_els] in E. sub E c E1. inversion E; subst. eapply Hb; eauto.
  - intros e b Hb r Hr n lp sw cr0 bok kok Ok E. cbn [comp_els] in E. sub E cc E1. sub E cb E2. sub E cr E3. inversion E; subst.
    cbn [ok_els] in Ok. rewrite !andb_true_iff in Ok. destruct Ok as ((O1 & O2) & O3).
    apply Hif; [eapply expr_nobc; eauto | eapply Hb; eauto | exact (Hr n lp sw cr bok kok O3 E3)].
  - intros z ss Hss n lp sw c bok kok Ok E. cbn [comp_block] in E. cbn [ok_block] in Ok.
    destruct (10 <=? n)%nat; [discriminate|]. sub E c0 E0. rewrite orb_false_r in E.
    destruct (decl_stmts ss); inversion E; subst; [|eapply Hss; eauto].
    constructor; [exact I|]. apply marks_app. split; [|repeat constructor].
    eapply marks_le; [| |eapply Hss; eauto]; discriminate.
  - intros n lp sw c bok kok Ok E. inversion E; subst. constructor.
  - intros s Hs ss Hss n lp sw c bok kok Ok E. cbn [comp_stmts] in E. sub E c1 E1. sub E c2 E2. inversion E; subst.
    cbn [ok_stmts] in Ok. apply andb_true_iff in Ok. destruct Ok as (O1 & O2).
    apply marks_app. split; [eapply Hs; eauto | eapply Hss; eauto].
  - intros n lp kok off body l d Ok E. inversion E; subst. constructor.
  - intros ls ss Hss brk cs Hcs n lp kok off body l d Ok E.
    destruct (clauses_inv _ _ _ _ _ _ _ _ _ _ E) as (c & l1 & d1 & body' & l' & d' & E1 & E2 & E3 & -> & -> & Hd).
    cbn [ok_clauses] in Ok. rewrite !andb_true_iff in Ok. destruct Ok as ((_ & O1) & O2).
    apply marks_app. split; [|eapply Hcs; eauto]. pose proof (Hss _ _ _ _ _ _ O1 E1) as Hc.
    unfold clause_code. destruct brk; [|exact Hc]. destruct cs; [exact Hc|].
    apply marks_app. split; [exact Hc | repeat constructor].
Qed.

(** ** Function bodies. *)
Definition ends (C : code) (w : W S) (r : sres S) : Prop :=
  exists s2, steps S C (St S 0 [] w []) s2 /\ step S C s2 = r.

Theorem function_correct : forall n ss C f w r,
  ok_stmts foldk good false false ss = true -> comp_fun foldk is_call n ss = Some C ->
  exec_stmts S ss f w = Some r ->
  match r with
  | ONorm _ w' => ends C w (Done S w' [])
  | ORet _ vs w' => exists g, ends C w (Done S w' (rev vs ++ g)) /\ (tidy_stmts is_call ss = true -> g = [])
  | OErr _ w' => ends C w (Failed S w')
  | OBrk _ _ | OCont _ _ => False
  end.
Proof.
  intros n ss C f w r Ok E Er. unfold comp_fun in E. sub E c Ec. inversion E; subst C.
  pose proof (proj1 (proj2 (proj2 (proj2 statements_marks))) ss n false false c false false Ok Ec) as Hm.
  pose proof (proj1 (proj2 (proj2 (proj2 statements_correct))) ss n false false c false false Ok Ec) as Hs.
  assert (HC : code_at (c ++ [EndFun]) 0 (link (Z.of_nat 0) (Z.of_nat 0) (Z.of_nat 0) c)).
  { rewrite link_nobc by (apply marks_nobc; exact Hm).
    exists [], [EndFun]. split; reflexivity. }
  specialize (Hs (c ++ [EndFun]) 0%nat 0%nat 0%nat f [] w [] r HC ltac:(cbn; lia) Er).
  destruct r as [w'|w'|w'|vs w'|w']; cbn [outc sk Nat.add] in Hs.
  - destruct Hs as (s' & H1 & _). exists (St S (length c) s' w' []). split; [exact H1|].
    unfold step. cbn [pc sk wd scs]. rewrite nth_error_app2, Nat.sub_diag by lia. reflexivity.
  - destruct Hs; discriminate.
  - destruct Hs; discriminate.
  - destruct Hs as (s2 & g & H1 & H2 & H3). exists g. split; [exists s2; split; [exact H1 | exact H2]|].
    intros Ht. exact (H3 Ht eq_refl).
  - destruct Hs as (s2 & H1 & H2). exists s2. split; assumption.
Qed.
End Sim.

(** ** More iterations do not change an outcome; the rules for loops. *)
Section Fuel.
Variable S : Sem.
Definition mono (x : sden S) : Prop := forall f g w r, (f <= g)%nat -> x f w = Some r -> x g w = Some r.
Lemma loop_mono : forall cond x post, mono x -> mono (loop S cond x post).
Proof.
  intros cond x post Hx. intros f. induction f as [|f IH]; intros g w r Hle E; [discriminate|].
  destruct g as [|g]; [lia|]. cbn [loop] in *. destruct (cond w) as [[|] w1|w1]; auto.
  destruct (x f w1) as [r1|] eqn:E1; [|discriminate]. rewrite (Hx f g w1 r1) by (auto; lia).
  destruct r1 as [w2|w2|w2|vs w2|w2]; auto; destruct (post w2) as [[] w3|w3]; auto; apply IH; auto; lia.
Qed.
Lemma do_mono : forall cond x, mono x -> mono (do_loop S x cond).
Proof.
  intros cond x Hx. intros f. induction f as [|f IH]; intros g w r Hle E; [discriminate|].
  destruct g as [|g]; [lia|]. cbn [do_loop] in *.
  destruct (x f w) as [r1|] eqn:E1; [|discriminate]. rewrite (Hx f g w r1) by (auto; lia).
  destruct r1 as [w2|w2|w2|vs w2|w2]; auto; destruct (cond w2) as [[|] w3|w3]; auto; apply IH; auto; lia.
Qed.
Lemma leaving_mono : forall z x, mono x -> mono (fun f w => leaving S z (x f w)).
Proof.
  intros z x Hx f g w r Hle E. destruct (x f w) as [r1|] eqn:E1; [|discriminate].
  rewrite (Hx f g w r1); auto.
Qed.
Lemma then_mono : forall x y, mono x -> mono y -> mono (fun f w => then_ S (x f w) (y f)).
Proof.
  intros x y Hx Hy f g w r Hle E. destruct (x f w) as [r1|] eqn:E1; [|discriminate].
  rewrite (Hx f g w r1) by auto. destruct r1; auto. eapply Hy; eauto.
Qed.
Lemma const_mono : forall h, mono (fun _ w => h w).
Proof. intros h f g w r _ E. exact E. Qed.

Lemma exec_mono :
  (forall s, mono (exec_stmt S s)) /\ (forall r, mono (exec_els S r)) /\
  (forall b, forall i, mono (exec_block S i b)) /\ (forall ss, mono (exec_stmts S ss)) /\
  (forall cs, forall k, mono (exec_clauses S cs k)).
Proof.
  apply stmt_syntax_ind.
  - apply (const_mono (fun w => Some (ONorm S w))).
  - intros es. apply (const_mono (fun w => Some (of_unit S (exec_seq S es w)))).
  - intros ls rs. apply (const_mono (fun w => Some (of_unit S (exec_multi S ls rs w)))).
  - intros x oe. apply (const_mono (fun w => Some (of_unit S (exec_var S x oe w)))).
  - intros es. intros f g w r _ E. exact E.
  - intros b Hb. apply (Hb false).
  - intros e b Hb r Hr f g w o Hle E. cbn [exec_stmt] in *. destruct (test S e w) as [[|] w1|w1]; auto.
    + eapply (Hb false); eauto.
    + eapply Hr; eauto.
  - intros e b Hb. apply (loop_mono (test S e) (exec_block S true b)). apply Hb.
  - intros b Hb e. apply (do_mono (test S e) (exec_block S true b)). apply Hb.
  - intros z init oe post b Hb.
    set (cond := match oe with Some e => test S e | None => fun w1 => EOk true w1 end).
    pose proof (loop_mono cond _ (exec_seq S post) (Hb true)) as Hl.
    destruct init as [|vs|es].
    + exact Hl.
    + apply (leaving_mono z (fun f w => then_ S (Some (of_unit S (exec_vars S vs w))) (loop S cond (exec_block S true b) (exec_seq S post) f))).
      apply (then_mono (fun _ w => Some (of_unit S (exec_vars S vs w)))); [apply (const_mono (fun w => Some (of_unit S (exec_vars S vs w)))) | exact Hl].
    + apply (then_mono (fun _ w => Some (of_unit S (exec_seq S es w)))); [apply (const_mono (fun w => Some (of_unit S (exec_seq S es w)))) | exact Hl].
  - intros z xs it a b Hb.
    set (d := fun w => ebind (eval_operand S a w) (fun v w1 => itinit S v (lvar S (Local it)) w1)).
    set (body := fun f1 w2 => then_ S (Some (of_unit S (fetch S xs it w2))) (exec_block S true b f1)).
    assert (Hy : mono body).
    { apply (then_mono (fun _ w => Some (of_unit S (fetch S xs it w)))); [|apply Hb].
      apply (const_mono (fun w => Some (of_unit S (fetch S xs it w)))). }
    apply (leaving_mono z (fun f w => then_ S (Some (of_unit S (d w))) (loop S (more S it) body (advance S it) f))).
    apply (then_mono (fun _ w => Some (of_unit S (d w)))); [apply (const_mono (fun w => Some (of_unit S (d w))))|].
    apply loop_mono. exact Hy.
  - intros e cs Hcs f g w r Hle E. cbn [exec_stmt] in *. destruct (eval_expr S e w) as [v w1|w1]; auto.
    destruct (select S 0 cs v w1) as [o w2|w2]; auto.
    destruct (match o with Some k => Some k | None => default_at 0 cs end); auto. eapply Hcs; eauto.
  - apply (const_mono (fun w => Some (OBrk S w))).
  - apply (const_mono (fun w => Some (OCont S w))).
  - apply (const_mono (fun w => Some (ONorm S w))).
  - intros b Hb. apply (Hb false).
  - intros e b Hb r Hr f g w o Hle E. cbn [exec_els] in *. destruct (test S e w) as [[|] w1|w1]; auto.
    + eapply (Hb false); eauto.
    + eapply Hr; eauto.
  - intros z ss Hss i. intros f g w r Hle E. cbn [exec_block] in *. destruct (decl_stmts ss || i).
    + eapply (leaving_mono z _ Hss); eauto.
    + eapply Hss; eauto.
  - apply (const_mono (fun w => Some (ONorm S w))).
  - intros s Hs ss Hss. apply (then_mono _ _ Hs Hss).
  - intros k. apply (const_mono (fun w => Some (ONorm S w))).
  - intros ls ss Hss brk cs Hcs k f g w r Hle E. destruct k as [|k].
    + cbn [exec_clauses] in *.
      change ((match exec_stmts S ss f w with
          | Some (ONorm _ w1) => if brk then Some (ONorm S w1) else exec_clauses S cs O f w1
          | Some (OBrk _ w1) => Some (ONorm S w1)
          | r => r
          end) = Some r) in E.
      change ((match exec_stmts S ss g w with
          | Some (ONorm _ w1) => if brk then Some (ONorm S w1) else exec_clauses S cs O g w1
          | Some (OBrk _ w1) => Some (ONorm S w1)
          | r => r
          end) = Some r).
      destruct (exec_stmts S ss f w) as [r1|] eqn:E1; [|discriminate]. rewrite (Hss f g w r1) by auto.
      destruct r1; auto. destruct brk; auto. eapply Hcs; eauto.
    + apply (Hcs k f g w r Hle E).
Qed.

Lemma while_runs_loop : forall cond x post w r, mono x ->
  while_runs S cond x post w r -> terminates S (loop S cond x post) w r.
Proof.
  intros cond x post w r Hx H.
  induction H as [w w1 Hc | w w1 Hc | w w1 r1 w2 w3 r Hc (f & Hb) Hr Hp _ (g & IH)
    | w w1 r1 w2 w3 Hc (f & Hb) Hr Hp | w w1 w2 Hc (f & Hb) | w w1 vs w2 Hc (f & Hb) | w w1 w2 Hc (f & Hb)].
  - exists 1%nat. cbn [loop]. rewrite Hc. reflexivity.
  - exists 1%nat. cbn [loop]. rewrite Hc. reflexivity.
  - exists (Datatypes.S (f + g)). cbn [loop]. rewrite Hc, (Hx f (f + g)%nat w1 r1) by (auto; lia).
    destruct Hr as [-> | ->]; rewrite Hp; apply (loop_mono cond x post Hx g (f + g)%nat); auto; lia.
  - exists (Datatypes.S f). cbn [loop]. rewrite Hc, Hb. destruct Hr as [-> | ->]; rewrite Hp; reflexivity.
  - exists (Datatypes.S f). cbn [loop]. rewrite Hc, Hb. reflexivity.
  - exists (Datatypes.S f). cbn [loop]. rewrite Hc, Hb. reflexivity.
  - exists (Datatypes.S f). cbn [loop]. rewrite Hc, Hb. reflexivity.
Qed.
Lemma loop_while_runs : forall cond x post w r, terminates S (loop S cond x post) w r -> while_runs S cond x post w r.
Proof.
  intros cond x post w r (f & E). revert w E. induction f as [|f IH]; intros w E; [discriminate|].
  cbn [loop] in E. destruct (cond w) as [[|] w1|w1] eqn:Ec.
  - destruct (x f w1) as [r1|] eqn:Eb; [|discriminate].
    destruct r1 as [w2|w2|w2|vs w2|w2].
    + destruct (post w2) as [[] w3|w3] eqn:Ep.
      * eapply wr_next; [exact Ec | exists f; exact Eb | auto | exact Ep | auto].
      * inversion E; subst. eapply wr_post_error; [exact Ec | exists f; exact Eb | auto | exact Ep].
    + inversion E; subst. eapply wr_break; eauto. exists f; eauto.
    + destruct (post w2) as [[] w3|w3] eqn:Ep.
      * eapply wr_next; [exact Ec | exists f; exact Eb | auto | exact Ep | auto].
      * inversion E; subst. eapply wr_post_error; [exact Ec | exists f; exact Eb | auto | exact Ep].
    + inversion E; subst. eapply wr_return; eauto. exists f; eauto.
    + inversion E; subst. eapply wr_body_error; eauto. exists f; eauto.
  - inversion E; subst. apply wr_stop; auto.
  - inversion E; subst. apply wr_cond_error; auto.
Qed.
Lemma do_runs_loop : forall cond x w r, mono x -> do_runs S x cond w r -> terminates S (do_loop S x cond) w r.
Proof.
  intros cond x w r Hx H.
  induction H as [w r1 w1 w2 r (f & Hb) Hr Hc _ (g & IH) | w r1 w1 w2 (f & Hb) Hr Hc | w r1 w1 w2 (f & Hb) Hr Hc
    | w w1 (f & Hb) | w vs w1 (f & Hb) | w w1 (f & Hb)].
  - exists (Datatypes.S (f + g)). cbn [do_loop]. rewrite (Hx f (f + g)%nat w r1) by (auto; lia).
    destruct Hr as [-> | ->]; rewrite Hc; apply (do_mono cond x Hx g (f + g)%nat); auto; lia.
  - exists (Datatypes.S f). cbn [do_loop]. rewrite Hb. destruct Hr as [-> | ->]; rewrite Hc; reflexivity.
  - exists (Datatypes.S f). cbn [do_loop]. rewrite Hb. destruct Hr as [-> | ->]; rewrite Hc; reflexivity.
  - exists (Datatypes.S f). cbn [do_loop]. rewrite Hb. reflexivity.
  - exists (Datatypes.S f). cbn [do_loop]. rewrite Hb. reflexivity.
  - exists (Datatypes.S f). cbn [do_loop]. rewrite Hb. reflexivity.
Qed.
End Fuel.
