(** * Compiled expressions compute the value of the expression. *)
From Coq Require Import ZArith List Bool Lia.
From Verif Require Import Base FloatModel ExprModel VmModel ExprSpec ExprTree ExprShape.
Import ListNotations.
Local Open Scope Z_scope.

Lemma code_at_app : forall C p a b, code_at C p (a ++ b) <-> code_at C p a /\ code_at C (p + length a) b.
Proof.
  intros C p a b. split.
  - intros (C1 & C2 & -> & <-). split.
    + exists C1, (b ++ C2). rewrite <- !app_assoc. auto.
    + exists (C1 ++ a), C2. rewrite <- !app_assoc, app_length. auto.
  - intros ((C1 & C2 & E & L1) & (D1 & D2 & E' & L2)).
    exists C1, D2. split; [|exact L1].
    assert (HD : D1 = C1 ++ a).
    { rewrite E in E'. apply (f_equal (firstn (length (C1 ++ a)))) in E'.
      rewrite app_assoc, firstn_app, Nat.sub_diag, firstn_all, firstn_O, app_nil_r in E'.
      rewrite E', firstn_app.
      replace (length (C1 ++ a)) with (length D1) by (rewrite app_length; lia).
      rewrite Nat.sub_diag, firstn_all, firstn_O, app_nil_r. reflexivity. }
    subst D1. rewrite E', <- !app_assoc. reflexivity.
Qed.
Lemma code_at_cons : forall C p i c, code_at C p (i :: c) -> nth_error C p = Some i /\ code_at C (p + 1) c.
Proof.
  intros C p i c H. split.
  - destruct H as (C1 & C2 & -> & <-). rewrite nth_error_app2, Nat.sub_diag by lia. reflexivity.
  - change (i :: c) with ([i] ++ c) in H. apply code_at_app in H. apply H.
Qed.
Lemma code_at_self : forall c, code_at c 0 c.
Proof. intros. exists [], []. rewrite app_nil_r. auto. Qed.

Section Steps.
Variable S : Sem.
Notation st := (st S).

Lemma steps_trans : forall C (s1 s2 s3 : st), steps S C s1 s2 -> steps S C s2 s3 -> steps S C s1 s3.
Proof. intros C s1 s2 s3 H. induction H; intros; [auto|]. econstructor; eauto. Qed.
Lemma steps_one : forall C (s1 s2 : st), step S C s1 = Next S s2 -> steps S C s1 s2.
Proof. intros. econstructor; [eauto | constructor]. Qed.
Lemma fails_trans : forall C (s1 s2 : st) w, steps S C s1 s2 -> fails S C s2 w -> fails S C s1 w.
Proof. intros C s1 s2 w H (s' & H1 & H2). exists s'. split; [eapply steps_trans; eauto | auto]. Qed.
Lemma fails_now : forall C (s : st) w, step S C s = Failed S w -> fails S C s w.
Proof. intros. exists s. split; [constructor | auto]. Qed.

(** What a single load computes. *)
Lemma computes_one : forall i (f : W S -> V S) d,
  (forall w, step S [i] (St S 0 [] w []) = Next S (St S 1 [inl (f w)] w [])) ->
  computes S [i] d -> forall w, d w = EOk (f w) w.
Proof.
  intros i f d Hi Hd w. specialize (Hd [i] 0%nat [] w [] (code_at_self _)).
  assert (St1 : forall s w0 sc, step S [i] (St S 1 s w0 sc) = Stuck S) by reflexivity.
  destruct (d w) as [v w' | w'].
  - inversion Hd; subst. rewrite Hi in H. inversion H; subst.
    inversion H0; subst; [reflexivity|]. rewrite St1 in H1. discriminate.
  - destruct Hd as (s' & H1 & H2). inversion H1; subst.
    + rewrite Hi in H2. discriminate.
    + rewrite Hi in H. inversion H; subst. inversion H0; subst.
      * rewrite St1 in H2. discriminate.
      * rewrite St1 in H3. discriminate.
Qed.
Lemma computes_LoadK : forall k d, computes S [LoadK k] d -> forall w, d w = EOk (kval S k) w.
Proof. intros k d. apply (computes_one (LoadK k) (fun _ => kval S k)). reflexivity. Qed.
Lemma computes_LoadVar : forall x d, computes S [LoadVar x] d -> forall w, d w = EOk (vget S w x) w.
Proof. intros x d. apply (computes_one (LoadVar x) (fun w => vget S w x)). reflexivity. Qed.

(** ** Operand forms of the two-operand instructions. *)
Lemma reg_inv : forall i r f, get_register i = Some (r, f) ->
  exists x, i = LoadVar x /\ reg_var r f = x /\ 0 <= r < 128 /\ (f = 0 \/ f = P_THIS_VAR).
Proof.
  intros i r f H. destruct i; try discriminate. destruct x as [n | n | n]; cbn [get_register] in H;
    try discriminate; destruct (Z.leb_spec 128 (Z.of_nat n)); inversion H; subst.
  - exists (Local n). split; [reflexivity|]. unfold reg_var. rewrite Nat2Z.id. split; [reflexivity|].
    split; [lia | auto].
  - exists (This n). split; [reflexivity|]. unfold reg_var. rewrite Nat2Z.id. split; [reflexivity|].
    split; [lia | auto].
Qed.

Lemma pop_plain : forall o1 v2 (a b : V S) s w,
  pop_two S o1 v2 0 (inl b :: inl a :: s) w = Some (a, b, s).
Proof. reflexivity. Qed.
Lemma pop_R : forall i r f x (a : V S) v2 s w, get_register i = Some (r, f) -> i = LoadVar x ->
  pop_two S r v2 (Z.lor P_ILOAD_R f) (inl a :: s) w = Some (a, vget S w x, s).
Proof.
  intros i r f x a v2 s w H E. destruct (reg_inv _ _ _ H) as (y & E' & Hy & _ & [-> | ->]);
    rewrite E in E'; inversion E'; subst; reflexivity.
Qed.
Lemma pop_RK : forall i r f x k s w, get_register i = Some (r, f) -> i = LoadVar x ->
  pop_two S r (Cst k) (Z.lor (Z.lor P_ILOAD_RK f) (k_property k)) s w
  = Some (vget S w x, kval S k, s).
Proof.
  intros i r f x k s w H E. destruct (reg_inv _ _ _ H) as (y & E' & Hy & _ & [-> | ->]);
    rewrite E in E'; inversion E'; subst; destruct k; reflexivity.
Qed.
Lemma pop_KR : forall i r f x k s w, get_register i = Some (r, f) -> i = LoadVar x ->
  pop_two S r (Cst k) (Z.lor (Z.lor P_ILOAD_KR f) (k_property k)) s w
  = Some (kval S k, vget S w x, s).
Proof.
  intros i r f x k s w H E. destruct (reg_inv _ _ _ H) as (y & E' & Hy & _ & [-> | ->]);
    rewrite E in E'; inversion E'; subst; destruct k; reflexivity.
Qed.

Lemma pack_check : forallb (fun r =>
    (Z.shiftr (Z.land (Z.lor (Z.shiftl (Z.land r 255) 16) 0) 16711680) 16 =? r) &&
    (Z.shiftr (Z.land (Z.lor (Z.shiftl (Z.land r 255) 16) P_THIS_VAR) 16711680) 16 =? r) &&
    (Z.land (Z.lor (Z.shiftl (Z.land r 255) 16) 0) P_THIS_VAR =? 0) &&
    negb (Z.land (Z.lor (Z.shiftl (Z.land r 255) 16) P_THIS_VAR) P_THIS_VAR =? 0))
  (map Z.of_nat (seq 0 128)) = true.
Proof. reflexivity. Qed.
Lemma pack_ok : forall r f, 0 <= r < 128 -> (f = 0 \/ f = P_THIS_VAR) ->
  let z := Z.lor (Z.shiftl (Z.land r 255) 16) f in
  Z.shiftr (Z.land z 16711680) 16 = r /\ (Z.land z P_THIS_VAR =? 0) = (f =? 0).
Proof.
  intros r f Hr Hf z. pose proof pack_check as H. rewrite forallb_forall in H.
  specialize (H r). rewrite !andb_true_iff, negb_true_iff in H.
  assert (Hin : In r (map Z.of_nat (seq 0 128))).
  { apply in_map_iff. exists (Z.to_nat r). split; [lia|]. apply in_seq. lia. }
  destruct (H Hin) as (((H1 & H2) & H3) & H4). apply Z.eqb_eq in H1, H2.
  destruct Hf as [-> | ->]; unfold z.
  - split; [exact H1 | rewrite H3; reflexivity].
  - split; [exact H2 | rewrite H4; reflexivity].
Qed.
Lemma pop_RR : forall i r f x i' r' f' x' s w,
  get_register i = Some (r, f) -> i = LoadVar x ->
  get_register i' = Some (r', f') -> i' = LoadVar x' ->
  pop_two S r (Raw (Z.lor (Z.shiftl (Z.land r' 255) 16) f')) (Z.lor P_ILOAD_RR f) s w
  = Some (vget S w x, vget S w x', s).
Proof.
  intros i r f x i' r' f' x' s w H E H' E'.
  destruct (reg_inv _ _ _ H) as (y & Ey & Hy & _ & Hf). assert (y = x) by congruence; subst x.
  destruct (reg_inv _ _ _ H') as (y' & Ey' & Hy' & Hr' & Hf'). assert (y' = x') by congruence; subst x'.
  destruct (pack_ok r' f' Hr' Hf') as (P1 & P2).
  set (z := Z.lor (Z.shiftl (Z.land r' 255) 16) f') in *.
  assert (Hz : reg_var (Z.shiftr (Z.land z 16711680) 16) z = y').
  { rewrite <- Hy'. unfold reg_var. rewrite P1, P2.
    destruct Hf' as [-> | ->]; reflexivity. }
  assert (Hx : reg_var r (Z.lor P_ILOAD_RR f) = y).
  { rewrite <- Hy. destruct Hf as [-> | ->]; reflexivity. }
  unfold pop_two.
  replace (Z.land (Z.lor P_ILOAD_RR f) P_ILOAD) with P_ILOAD_RR by (destruct Hf as [-> | ->]; reflexivity).
  change (P_ILOAD_RR =? P_ILOAD_K) with false. change (P_ILOAD_RR =? P_ILOAD_R) with false.
  change (P_ILOAD_RR =? P_ILOAD_KR) with false. change (P_ILOAD_RR =? P_ILOAD_RK) with false.
  change (P_ILOAD_RR =? P_ILOAD_RR) with true. cbn iota.
  rewrite Hx, Hz. reflexivity.
Qed.

End Steps.

Definition load (i : instr) : bool :=
  is_k i || match get_register i with Some _ => true | None => false end.
Definition tidy (c : code) : Prop := (exists i, c = [i]) \/ (exists c' i, c = c' ++ [i] /\ load i = false).
Definition ends_jk (c : code) : Prop := exists c' m off k, c = c' ++ [Jmp m off; LoadK k].

Section Sim.
Variable S : Sem.
Variable foldk : bop -> const -> const -> fold.
Variable good : bop -> const -> const -> bool.
Hypothesis Hgood : forall o k1 k2 k, good o k1 k2 = true -> foldk o k1 k2 = FoldK k ->
  forall w, binop S o (kval S k1) (kval S k2) w = EOk (kval S k) w.
Hypothesis Hbool : forall b, vbool S (kval S (KBool b)) = Some b.

Notation computes := (computes S).
Notation bin_code := (bin_code foldk).
Notation ptree := (ptree foldk).

Definition bind2 (o : bop) (dl dr : W S -> ev (W S) (V S)) : W S -> ev (W S) (V S) :=
  fun w => ebind (dl w) (fun a w1 => ebind (dr w1) (fun b w2 => binop S o a b w2)).

Lemma computes_bin : forall o cl cr dl dr,
  computes cl dl -> computes cr dr ->
  computes (cl ++ cr ++ [Bin o (-1) (Raw (-1)) 0]) (bind2 o dl dr).
Proof.
  intros o cl cr dl dr Hl Hr C p s w sc HC.
  apply code_at_app in HC. destruct HC as (HC1 & HC). apply code_at_app in HC. destruct HC as (HC2 & HC3).
  apply code_at_cons in HC3. destruct HC3 as (HN & _).
  unfold bind2. specialize (Hl C p s w sc HC1). destruct (dl w) as [a w1 | w1]; cbn [ebind]; [|exact Hl].
  specialize (Hr C _ (inl a :: s) w1 sc HC2). destruct (dr w1) as [b w2 | w2]; cbn [ebind].
  - assert (E : step S C (St S (p + length cl + length cr) (inl b :: inl a :: s) w2 sc) =
        of_ev S (binop S o a b w2) (fun v w' => pushed S false (p + length cl + length cr) (inl v) s w' sc)).
    { unfold step. cbn [pc wd scs sk]. rewrite HN, pop_plain. reflexivity. }
    destruct (binop S o a b w2) as [v w3 | w3]; cbn [of_ev] in E.
    + eapply steps_trans; [exact Hl|]. eapply steps_trans; [exact Hr|].
      apply steps_one. rewrite E. unfold pushed. f_equal. f_equal. rewrite !app_length. cbn; lia.
    + eapply fails_trans; [exact Hl|]. eapply fails_trans; [exact Hr|]. apply fails_now; auto.
  - eapply fails_trans; [exact Hl | exact Hr].
Qed.

(** One instruction that finds its operands without the stack. *)
Lemma computes_bin0 : forall o op1 v2 props (fa fb : W S -> V S) dl dr,
  (forall w, dl w = EOk (fa w) w) -> (forall w, dr w = EOk (fb w) w) ->
  (forall s w, pop_two S op1 v2 props s w = Some (fa w, fb w, s)) ->
  computes [Bin o op1 v2 props] (bind2 o dl dr).
Proof.
  intros o op1 v2 props fa fb dl dr Hl Hr Hp C p s w sc HC.
  apply code_at_cons in HC. destruct HC as (HN & _).
  unfold bind2. rewrite Hl. cbn [ebind]. rewrite Hr. cbn [ebind].
  assert (E : step S C (St S p s w sc) =
      of_ev S (binop S o (fa w) (fb w) w) (fun v w' => pushed S false p (inl v) s w' sc)).
  { unfold step. cbn [pc wd scs sk]. rewrite HN, Hp. reflexivity. }
  destruct (binop S o (fa w) (fb w) w) as [v w3 | w3]; cbn [of_ev] in E.
  - apply steps_one. rewrite E. unfold pushed. f_equal. f_equal. cbn; lia.
  - apply fails_now; auto.
Qed.

(** The right operand in a register. *)
Lemma computes_bin1 : forall o op1 v2 props cl (fb : W S -> V S) dl dr,
  computes cl dl -> (forall w, dr w = EOk (fb w) w) ->
  (forall a s w, pop_two S op1 v2 props (inl a :: s) w = Some (a, fb w, s)) ->
  computes (cl ++ [Bin o op1 v2 props]) (bind2 o dl dr).
Proof.
  intros o op1 v2 props cl fb dl dr Hl Hr Hp C p s w sc HC.
  apply code_at_app in HC. destruct HC as (HC & HC2). apply code_at_cons in HC2. destruct HC2 as (HN & _).
  unfold bind2. specialize (Hl C p s w sc HC). destruct (dl w) as [a w1 | w1]; cbn [ebind]; [|exact Hl].
  rewrite Hr. cbn [ebind].
  assert (E : step S C (St S (p + length cl) (inl a :: s) w1 sc) =
      of_ev S (binop S o a (fb w1) w1) (fun v w' => pushed S false (p + length cl) (inl v) s w' sc)).
  { unfold step. cbn [pc wd scs sk]. rewrite HN, Hp. reflexivity. }
  destruct (binop S o a (fb w1) w1) as [v w3 | w3]; cbn [of_ev] in E.
  - eapply steps_trans; [exact Hl|]. apply steps_one. rewrite E. unfold pushed. f_equal. f_equal.
    rewrite app_length. cbn; lia.
  - eapply fails_trans; [exact Hl|]. apply fails_now; auto.
Qed.

Lemma load_false : forall i, load i = false -> is_const i = None /\ get_register i = None.
Proof.
  unfold load, is_k. intros i H. apply orb_false_iff in H.
  destruct (is_const i), (get_register i); intuition; discriminate.
Qed.
Lemma is_const_inv : forall i k, is_const i = Some k -> i = LoadK k.
Proof. intros i k H. destruct i; inversion H; reflexivity. Qed.
Lemma const_not_reg : forall i k, is_const i = Some k -> get_register i = None.
Proof. intros i k H. apply is_const_inv in H. subst; reflexivity. Qed.

Definition tidy_op (c : code) : Prop := exists c' i, c = c' ++ [i] /\ load i = false.

Lemma bin_case : forall o cl cr c dl dr,
  o <> O_INST ->
  computes cl dl -> computes cr dr ->
  cl <> [] -> tidy cl -> cr <> [] -> (tidy cr \/ ends_jk cr) ->
  (forall k1 k2, cl = [LoadK k1] -> cr = [LoadK k2] -> good o k1 k2 = true) ->
  bin_code o (cl ++ cr) = Some c ->
  computes c (bind2 o dl dr) /\
  (tidy_op c \/
   exists k1 k2 k, cl = [LoadK k1] /\ cr = [LoadK k2] /\ foldk o k1 k2 = FoldK k /\ c = [LoadK k]).
Proof.
  intros o cl cr c dl dr Ho Cl Cr Nl Tl Nr Tr Hg E.
  assert (Plain : c = cl ++ cr ++ [Bin o (-1) (Raw (-1)) 0] ->
    computes c (bind2 o dl dr) /\
    (tidy_op c \/
     exists k1 k2 k, cl = [LoadK k1] /\ cr = [LoadK k2] /\ foldk o k1 k2 = FoldK k /\ c = [LoadK k])).
  { intros ->. split.
    - apply computes_bin; auto.
    - left. exists (cl ++ cr), (Bin o (-1) (Raw (-1)) 0). rewrite <- app_assoc. auto. }
  unfold ExprShape.bin_code in E.
  destruct (snoc_case _ cr) as [-> | (cr' & y & ->)]; [congruence|].
  destruct (snoc_case _ cr') as [-> | (cr2 & x & ->)].
  - (* one instruction on the right *)
    cbn [app] in *. destruct (snoc_case _ cl) as [-> | (cl' & x & ->)]; [congruence|].
    assert (Ea : (cl' ++ [x]) ++ [y] = cl' ++ [x; y]) by (rewrite <- app_assoc; reflexivity).
    rewrite Ea, optimize_pair in E by auto. unfold opt_pair in E.
    destruct (load x) eqn:Lx.
    + (* the left code is one load *)
      assert (El : cl' = []).
      { destruct Tl as [(i & Ei) | (c' & i & Ei & Hi)].
        - destruct cl' as [|? [|? ?]]; [auto | discriminate | discriminate].
        - apply app_inj_tail in Ei. destruct Ei; subst. congruence. }
      subst cl'. cbn [app] in *.
      destruct (is_const x) as [k1|] eqn:Kx.
      * rewrite (const_not_reg _ _ Kx) in E. apply is_const_inv in Kx. subst x.
        destruct (is_const y) as [k2|] eqn:Ky.
        -- apply is_const_inv in Ky. subst y.
           destruct (foldk o k1 k2) as [| |k] eqn:Ef; try discriminate. inversion E; subst; clear E.
           assert (G := Hg _ _ eq_refl eq_refl). split.
           ++ intros C p s w sc HC. unfold bind2.
              rewrite (computes_LoadK _ _ _ Cl). cbn [ebind]. rewrite (computes_LoadK _ _ _ Cr). cbn [ebind].
              rewrite (Hgood _ _ _ _ G Ef). apply code_at_cons in HC. destruct HC as (HN & _).
              apply steps_one. unfold step. cbn [pc wd scs sk]. rewrite HN. unfold pushed.
              f_equal. f_equal. cbn; lia.
           ++ right. exists k1, k2, k. auto.
        -- destruct (get_register y) as [(r2, f2)|] eqn:Ry.
           ++ inversion E; subst; clear E. destruct (reg_inv _ _ _ Ry) as (v & Ev & _). split.
              ** subst y. eapply computes_bin0.
                 --- exact (computes_LoadK _ _ _ Cl).
                 --- exact (computes_LoadVar _ _ _ Cr).
                 --- intros. eapply pop_KR; eauto.
              ** left. exists [], (Bin o r2 (Cst k1) (Z.lor (Z.lor P_ILOAD_KR f2) (k_property k1))). auto.
           ++ inversion E; subst; clear E. apply Plain. reflexivity.
      * unfold load, is_k in Lx. rewrite Kx in Lx. cbn [orb] in Lx.
        destruct (get_register x) as [(r1, f1)|] eqn:Rx; [|discriminate].
        destruct (reg_inv _ _ _ Rx) as (v1 & Ev1 & _). subst x.
        destruct (get_register y) as [(r2, f2)|] eqn:Ry.
        -- destruct (reg_inv _ _ _ Ry) as (v2 & Ev2 & _). subst y.
           cbn [is_const] in E. inversion E; subst; clear E. split.
           ++ eapply computes_bin0.
              ** exact (computes_LoadVar _ _ _ Cl).
              ** exact (computes_LoadVar _ _ _ Cr).
              ** intros. eapply pop_RR; eauto.
           ++ left. eexists [], _. split; reflexivity.
        -- destruct (is_const y) as [k2|] eqn:Ky.
           ++ apply is_const_inv in Ky. subst y. inversion E; subst; clear E. split.
              ** eapply computes_bin0.
                 --- exact (computes_LoadVar _ _ _ Cl).
                 --- exact (computes_LoadK _ _ _ Cr).
                 --- intros. eapply pop_RK; eauto.
              ** left. eexists [], _. split; reflexivity.
           ++ inversion E; subst; clear E. apply Plain. reflexivity.
    + destruct (load_false _ Lx) as (Kx & Rx). rewrite Kx, Rx in E.
      destruct (get_register y) as [(r2, f2)|] eqn:Ry.
      * destruct (reg_inv _ _ _ Ry) as (v2 & Ev2 & _). subst y. inversion E; subst; clear E. split.
        -- eapply computes_bin1; [exact Cl | exact (computes_LoadVar _ _ _ Cr) |].
           intros. eapply pop_R; eauto.
        -- left. eexists _, _. split; reflexivity.
      * apply Plain. destruct (is_const y); inversion E; subst; rewrite <- !app_assoc; reflexivity.
  - (* several instructions on the right: never optimised *)
    assert (Ea : cl ++ (cr2 ++ [x]) ++ [y] = (cl ++ cr2) ++ [x; y])
      by (rewrite <- !app_assoc; reflexivity).
    rewrite Ea, optimize_pair in E by auto. unfold opt_pair in E.
    apply Plain.
    assert (No : match is_const x, is_const y with
       | Some k1, Some k2 => False
       | _, _ => get_register y = None /\ (is_const y = None \/ get_register x = None)
       end).
    { destruct Tr as [[(i & Ei) | (c' & i & Ei & Hi)] | (c' & m & off & k & Ei)].
      - exfalso. apply (f_equal (@length _)) in Ei. rewrite !app_length in Ei. cbn in Ei. lia.
      - apply app_inj_tail in Ei. destruct Ei; subst i c'. destruct (load_false _ Hi) as (-> & ->).
        destruct (is_const x); auto.
      - change (c' ++ [Jmp m off; LoadK k]) with (c' ++ [Jmp m off] ++ [LoadK k]) in Ei.
        rewrite app_assoc in Ei. apply app_inj_tail in Ei. destruct Ei as (Ei & ->).
        apply app_inj_tail in Ei. destruct Ei as (_ & ->). cbn. auto. }
    assert (R : c = ((cl ++ cr2) ++ [x; y]) ++ [Bin o (-1) (Raw (-1)) 0]).
    { destruct (is_const x) as [k1|] eqn:Kx, (is_const y) as [k2|] eqn:Ky; [contradiction| | |];
        destruct No as (N1 & N2); rewrite N1 in E.
      - rewrite (const_not_reg _ _ Kx) in E. inversion E; reflexivity.
      - destruct N2 as [N2 | N2]; [discriminate|]. rewrite N2 in E. inversion E; reflexivity.
      - destruct (get_register x) as [(r1, f1)|]; inversion E; reflexivity. }
    rewrite R. rewrite <- !app_assoc. reflexivity.
Qed.

(** ** What is known of the code of an operand. *)
Record fact (a : operand) (c : code) : Prop := Fact {
  f_sim : computes c (eval_operand S a);
  f_tidy : jumpy a = false -> tidy c;
  f_jk : jumpy a = true -> ternish a = false -> ends_jk c;
  f_const : forall k, c = [LoadK k] -> const_operand foldk a = Some k;
  f_type : forall t, type_leaf a = Some t -> c = [LoadType t];
  f_bare : forall x, c = [LoadVar x] <-> bare_operand a = Some x;
  f_okc : okc c
}.

Definition lf := (operand * code)%type.
Definition inf (x : lf) : info :=
  Info (jumpy (fst x)) (ternish (fst x)) (type_leaf (fst x)) (const_operand foldk (fst x))
       (ok_operand foldk good (fst x)).
Definition dn (x : lf) : den S * option Z := (eval_operand S (fst x), type_leaf (fst x)).
Definition kn (x : lf) : option const := const_operand foldk (fst x).
Definition lfact (x : lf) : Prop := fact (fst x) (snd x).

Lemma tmap_tmap : forall A B D (f : A -> B) (g : B -> D) t, tmap g (tmap f t) = tmap (fun x => g (f x)) t.
Proof. induction t; cbn; congruence. Qed.

Lemma okl_leaves : forall T, leaves lfact T -> leaves okl (tmap snd T).
Proof.
  induction T as [x | o l IHl r IHr]; cbn; intros H.
  - destruct (f_okc _ _ H) as (A1 & A2 & _). split; auto.
  - intuition.
Qed.

Lemma eval_tree_bin : forall o l r w, is_logic o = false -> o <> O_INST ->
  eval_tree S (Node o l r) w = bind2 o (eval_tree S l) (eval_tree S r) w.
Proof. intros o l r w H1 H2. destruct o; try discriminate H1; try congruence; reflexivity. Qed.

Definition computes_ext : forall c d1 d2, (forall w, d1 w = d2 w) -> computes c d1 -> computes c d2.
Proof. intros c d1 d2 E H C p s w sc HC. rewrite <- E. apply H; auto. Qed.

Lemma computes_inst : forall cl dl t, computes cl dl ->
  computes (cl ++ [Inst t]) (fun w => ebind (dl w) (fun v w1 => instof S v t w1)).
Proof.
  intros cl dl t Hl C p s w sc HC. apply code_at_app in HC. destruct HC as (HC & HC2).
  apply code_at_cons in HC2. destruct HC2 as (HN & _).
  specialize (Hl C p s w sc HC). destruct (dl w) as [a w1 | w1]; cbn [ebind]; [|exact Hl].
  assert (E : step S C (St S (p + length cl) (inl a :: s) w1 sc) =
      of_ev S (instof S a t w1) (fun v w' => pushed S false (p + length cl) (inl v) s w' sc)).
  { unfold step. cbn [pc wd scs sk]. rewrite HN. reflexivity. }
  destruct (instof S a t w1) as [v w3 | w3]; cbn [of_ev] in E.
  - eapply steps_trans; [exact Hl|]. apply steps_one. rewrite E. unfold pushed. f_equal. f_equal.
    rewrite app_length. cbn; lia.
  - eapply fails_trans; [exact Hl|]. apply fails_now; auto.
Qed.

Lemma const_tree_node : forall o l r k1 k2 k, is_logic o = false -> o <> O_INST ->
  const_tree foldk l = Some k1 -> const_tree foldk r = Some k2 -> foldk o k1 k2 = FoldK k ->
  const_tree foldk (Node o l r) = Some k.
Proof.
  intros o l r k1 k2 k H1 H2 E1 E2 Ef. cbn [const_tree]. rewrite H1, E1, E2, Ef.
  destruct o; try reflexivity. congruence.
Qed.

Lemma tidy_op_tidy : forall c, tidy_op c -> tidy c.
Proof. intros c H; right; exact H. Qed.
Lemma tidy_op_no : forall c i, tidy_op c -> load i = true -> c <> [i].
Proof.
  intros c i (c' & j & -> & Hj) Hi E. destruct c' as [|? [|? ?]]; [|discriminate|discriminate].
  inversion E; subst. congruence.
Qed.

Lemma arith_tree : forall T c,
  all_ops nologic T -> ok_tree foldk good (tmap inf T) = true -> leaves lfact T ->
  ptree (tmap snd T) = Some c ->
  computes c (eval_tree S (tmap dn T)) /\
  match T with
  | Leaf _ => True
  | Node _ _ _ => tidy c /\ forall x, c <> [LoadVar x]
  end /\
  (forall k, c = [LoadK k] -> const_tree foldk (tmap kn T) = Some k).
Proof.
  induction T as [x | o l IHl r IHr]; intros c Ha Hok Hl E.
  - cbn in E. inversion E; subst. cbn in Hl. split; [|split; [exact I|]].
    + exact (f_sim _ _ Hl).
    + intros k Hk. cbn. apply (f_const _ _ Hl); auto.
  - destruct Ha as (Ho & Hal & Har), Hl as (Hll & Hlr).
    assert (Okl := okl_leaves _ Hll). assert (Okr := okl_leaves _ Hlr).
    cbn [ExprShape.ptree tmap] in E.
    destruct (ptree (tmap snd l)) as [cl|] eqn:El; [|discriminate].
    destruct (ptree (tmap snd r)) as [cr|] eqn:Er; [|discriminate].
    assert (Nl := proj1 (okl_ptree _ _ _ Okl El)). assert (Nr := proj1 (okl_ptree _ _ _ Okr Er)).
    cbn [tmap ok_tree] in Hok. rewrite !andb_true_iff in Hok. destruct Hok as ((Hokl & Hokr) & Hc).
    red in Ho. rewrite Ho in Hc.
    destruct (IHl _ Hal Hokl Hll eq_refl) as (Sl & Tl & Kl).
    destruct (bop_inst_dec o) as [-> | Hi].
    + (* instanceof *)
      destruct r as [y | ? ? ?]; [|discriminate]. cbn in Hc, Hlr, Er. inversion Er; subst cr; clear Er.
      destruct (type_leaf (fst y)) as [t|] eqn:Ety; [|discriminate].
      assert (Ey := f_type _ _ Hlr _ Ety). rewrite Ey in E.
      destruct (snoc_case _ cl) as [-> | (cl' & i & ->)]; [congruence|].
      unfold ExprShape.bin_code in E. rewrite <- app_assoc in E. cbn [app] in E.
      rewrite optimize_inst in E. cbn [inst_arg] in E. inversion E; subst; clear E.
      split; [|split; [split|]].
      * eapply computes_ext; [|apply computes_inst; exact Sl].
        intros w. cbn. rewrite Ety. reflexivity.
      * right. eexists _, _. split; reflexivity.
      * intros v Hv. destruct cl' as [|? [|? ?]]; discriminate.
      * intros k Hk. destruct cl' as [|? [|? ?]]; discriminate.
    + destruct (IHr _ Har Hokr Hlr eq_refl) as (Sr & Tr & Kr).
      assert (Hc' : negb (leaf_jump (tmap inf l)) && negb (leaf_tern (tmap inf r)) &&
        (match const_tree foldk (tmap kn l), const_tree foldk (tmap kn r) with
         | Some k1, Some k2 => good o k1 k2 | _, _ => true end) = true).
      { rewrite !tmap_tmap in Hc. destruct o; try congruence; exact Hc. }
      clear Hc. rewrite !andb_true_iff, !negb_true_iff in Hc'. destruct Hc' as ((Jl & Jr) & Gk).
      assert (Eb : bin_code o (cl ++ cr) = Some c) by (destruct o; try discriminate Ho; exact E).
      assert (Ttl : tidy cl).
      { destruct l as [x | ? ? ?]; [|apply Tl]. cbn in Jl, El, Hll. inversion El; subst.
        apply (f_tidy _ _ Hll); auto. }
      assert (Ttr : tidy cr \/ ends_jk cr).
      { destruct r as [x | ? ? ?]; [|left; apply Tr]. cbn in Jr, Er, Hlr. inversion Er; subst.
        destruct (jumpy (fst x)) eqn:Ej.
        - right. apply (f_jk _ _ Hlr); auto.
        - left. apply (f_tidy _ _ Hlr); auto. }
      destruct (bin_case o cl cr c _ _ Hi Sl Sr Nl Ttl Nr Ttr) as (Sc & Tc); auto.
      { intros k1 k2 E1 E2. rewrite (Kl _ E1), (Kr _ E2) in Gk. exact Gk. }
      split; [|split; [split|]].
      * eapply computes_ext; [|exact Sc]. intros w. cbn [tmap]. rewrite eval_tree_bin; auto.
      * destruct Tc as [Tc | (k1 & k2 & k & _ & _ & _ & ->)]; [apply tidy_op_tidy; auto|].
        left; eauto.
      * intros v ->. destruct Tc as [Tc | (k1 & k2 & k & _ & _ & _ & E')]; [|discriminate].
        destruct Tc as (c' & j & Ej & Hj). destruct c' as [|? [|? ?]]; [|discriminate|discriminate].
        inversion Ej; subst j.
        (* the result of an operator is a Bin, never a variable load *)
        clear - Eb Nl Nr Hi. unfold ExprShape.bin_code in Eb.
        destruct (snoc2_case _ (cl ++ cr)) as (l0 & a & b & E0).
        { rewrite app_length. destruct cl, cr; cbn; try congruence; lia. }
        rewrite E0, optimize_pair in Eb by auto. unfold opt_pair in Eb.
        assert (F : forall z i, Some (z ++ [i]) = Some [LoadVar v] -> i = LoadVar v).
        { intros z i Hz. inversion Hz. destruct z as [|? [|? ?]]; inversion H0; auto. }
        destruct (is_const a) as [k1|], (is_const b) as [k2|];
          [destruct (foldk o k1 k2); [discriminate | discriminate | apply F in Eb; discriminate] | | |];
          destruct (get_register a) as [(r1, f1)|], (get_register b) as [(r2, f2)|];
          apply F in Eb; discriminate.
      * intros k ->. destruct Tc as [Tc | (k1 & k2 & k' & E1 & E2 & Ef & E')].
        -- exfalso. eapply tidy_op_no; [exact Tc | | reflexivity]. reflexivity.
        -- inversion E'; subst k'. cbn [tmap]. eapply const_tree_node; eauto.
Qed.

(** ** Logical operators. *)
Lemma bin_code_nomark : forall o c c', nomark c -> bin_code o c = Some c' -> nomark c'.
Proof.
  intros o c c' Hn E. unfold ExprShape.bin_code in E.
  destruct (le_lt_dec 2 (length c)) as [H2 | H2].
  - destruct (snoc2_case _ _ H2) as (l & x & y & ->). apply nomark_app in Hn.
    destruct Hn as (Nl & Nxy).
    assert (Nx : nomark (l ++ [x])).
    { apply nomark_app; split; auto. inversion Nxy; subst. constructor; auto. }
    assert (A : forall z i, nomark z -> unmarked i -> nomark (z ++ [i])).
    { intros z i Hz Hi. apply nomark_app; split; auto. repeat constructor; auto. }
    destruct (bop_inst_dec o) as [-> | Ho].
    + rewrite optimize_inst in E. inversion E; subst. apply A; auto. exact I.
    + rewrite optimize_pair in E by auto. unfold opt_pair in E.
      assert (Pl : nomark ((l ++ [x; y]) ++ [Bin o (-1) (Raw (-1)) 0])).
      { apply A; [apply nomark_app; auto | exact I]. }
      destruct (is_const x) as [k1|], (is_const y) as [k2|];
        [destruct (foldk o k1 k2); [discriminate | discriminate | inversion E; subst; apply A; [auto | exact I]] | | |];
        destruct (get_register x) as [(r1, f1)|], (get_register y) as [(r2, f2)|];
        inversion E; subst; try exact Pl; apply A; auto; exact I.
  - assert (E0 : ExprModel.optimize foldk o c = OptNone).
    { destruct c as [|i [|? ?]]; [| |cbn in H2; lia]; reflexivity. }
    rewrite E0 in E. inversion E; subst. apply nomark_app; split; auto. repeat constructor.
Qed.

Lemma ptree_nomark : forall t c, all_ops nologic t -> leaves nomark t -> ptree t = Some c -> nomark c.
Proof.
  induction t as [x | o l IHl r IHr]; cbn; intros c Ha Hl E.
  - inversion E; subst; auto.
  - destruct Ha as (Ho & Hal & Har), Hl as (Hll & Hlr).
    destruct (ptree l) as [cl|]; [|discriminate]. destruct (ptree r) as [cr|]; [|discriminate].
    assert (Nc : nomark (cl ++ cr)) by (apply nomark_app; split; auto).
    destruct o; try discriminate Ho; eapply bin_code_nomark; eauto.
Qed.

Lemma ptree_no_or : forall t c, all_ops (fun o => o <> O_LOR) t -> by_priority t ->
  leaves nomark t -> ptree t = Some c -> next_or c = None /\ any_mark LogicOk c = false.
Proof.
  induction t as [x | o l IHl r IHr]; intros c Ha Hp Hl E.
  - cbn in E. inversion E; subst. split; [apply next_or_nomark | apply any_mark_nomark]; auto.
  - destruct (is_logic o) eqn:Ho.
    + destruct o; try discriminate Ho; [destruct Ha as (Ha & _); congruence|].
      destruct Ha as (_ & Hal & Har), Hp as (_ & _ & Pl & Pr), Hl as (Hll & Hlr).
      cbn in E. destruct (ptree l) as [cl|]; [|discriminate]. destruct (ptree r) as [cr|]; [|discriminate].
      inversion E; subst; clear E.
      destruct (IHl _ Hal Pl Hll eq_refl) as (N1 & M1). destruct (IHr _ Har Pr Hlr eq_refl) as (N2 & M2).
      split.
      * rewrite next_or_app, N1. cbn. rewrite N2. reflexivity.
      * rewrite any_mark_app, M1. exact M2.
    + assert (Nm : nomark c).
      { eapply ptree_nomark; [|exact Hl|exact E]. destruct Hp as (H1 & H2 & _). split; [exact Ho|].
        split; [eapply nologic_subl | eapply nologic_sub]; eauto. }
      split; [apply next_or_nomark | apply any_mark_nomark]; auto.
Qed.

Lemma no_or_under_and : forall A (l r : tree A), by_priority (Node O_LAND l r) ->
  all_ops (fun o => o <> O_LOR) (Node O_LAND l r).
Proof.
  intros A l r (H1 & H2 & _). split; [discriminate|]. split.
  - eapply all_ops_impl; [|exact H1]. intros o Ho ->. cbn in Ho. lia.
  - eapply all_ops_impl; [|exact H2]. intros o Ho ->. cbn in Ho. lia.
Qed.
Lemma no_or_right : forall A (l r : tree A), by_priority (Node O_LOR l r) ->
  all_ops (fun o => o <> O_LOR) r.
Proof.
  intros A l r (H1 & H2 & _). eapply all_ops_impl; [|exact H2]. intros o Ho ->. cbn in Ho. lia.
Qed.

(** The three ways the code of an expression with logical operators is left. *)
Definition leave (C : code) (p : nat) (s : list (slot S)) (w : W S) (sc : list Z)
    (c : code) (tt ff : nat) (v : V S) (w' : W S) : Prop :=
  steps S C (St S p s w sc) (St S (p + length c) (inl v :: s) w' sc) \/
  (any_mark LogicOk c = true /\ v = kval S (KBool true) /\
   steps S C (St S p s w sc) (St S tt s w' sc)) \/
  (any_mark NextOr c = true /\ v = kval S (KBool false) /\
   steps S C (St S p s w sc) (St S ff s w' sc)).

Lemma leaves_impl : forall A (P Q : A -> Prop) t, (forall a, P a -> Q a) -> leaves P t -> leaves Q t.
Proof. induction t; cbn; intuition. Qed.
Lemma leaves_tmap : forall A B (f : A -> B) P t, leaves P (tmap f t) <-> leaves (fun x => P (f x)) t.
Proof. induction t; cbn; intuition. Qed.

Lemma logic_tree : forall T c,
  by_priority T -> ok_tree foldk good (tmap inf T) = true -> leaves lfact T ->
  ptree (tmap snd T) = Some c ->
  forall C p tt ff s w sc,
  code_at C p (patch (Z.of_nat tt) (Z.of_nat ff) (Z.of_nat p) c) ->
  match eval_tree S (tmap dn T) w with
  | EOk v w' => leave C p s w sc c tt ff v w'
  | EErr w' => fails S C (St S p s w sc) w'
  end.
Proof.
  induction T as [x | o l IHl r IHr]; intros c Hp Hok Hl E C p tt ff s w sc HC.
  - cbn in E, Hl. inversion E; subst.
    rewrite patch_nomark in HC by apply (f_okc _ _ Hl).
    assert (H := f_sim _ _ Hl C p s w sc HC). cbn.
    destruct (eval_operand S (fst x) w); [left; exact H | exact H].
  - assert (Hnm : leaves nomark (tmap snd (Node o l r))).
    { apply leaves_tmap. eapply leaves_impl; [|exact Hl]. intros a Hf. apply (f_okc _ _ Hf). }
    destruct (is_logic o) eqn:Ho.
    + destruct Hl as (Hll & Hlr). destruct Hnm as (Hnl & Hnr).
      cbn [tmap ok_tree] in Hok. rewrite !andb_true_iff in Hok. destruct Hok as ((Hokl & Hokr) & _).
      assert (Hp' := proj2 (tmap_priority _ _ snd _) Hp). cbn [tmap] in Hp'.
      cbn [ExprShape.ptree tmap] in E.
      destruct (ptree (tmap snd l)) as [cl|] eqn:El; [|discriminate].
      destruct (ptree (tmap snd r)) as [cr|] eqn:Er; [|discriminate].
      assert (Pl : by_priority l) by apply Hp. assert (Pr : by_priority r) by apply Hp.
      destruct o; try discriminate Ho; inversion E; subst; clear E.
      * (* || *)
        assert (Nr := ptree_no_or _ _ (no_or_right _ _ _ Hp') (proj2 (proj2 (proj2 Hp'))) Hnr Er).
        destruct Nr as (Nr1 & Nr2).
        rewrite patch_app in HC. apply code_at_app in HC. destruct HC as (HC1 & HC2).
        rewrite patch_len in HC2. cbn [app patch] in HC2. apply code_at_cons in HC2.
        destruct HC2 as (HN & HC2).
        unfold f_of in HC1. cbn [app next_or] in HC1.
        replace (Z.of_nat p + Z.of_nat (length cl) + 0 + 1) with (Z.of_nat (p + length cl + 1)) in HC1 by lia.
        replace (Z.of_nat p + Z.of_nat (length cl) + 1) with (Z.of_nat (p + length cl + 1)) in HC2 by lia.
        assert (Len : (p + length (cl ++ [Jt LogicOk (-1)] ++ cr) = p + length cl + 1 + length cr)%nat)
          by (rewrite !app_length; cbn; lia).
        assert (Ml : any_mark LogicOk (cl ++ [Jt LogicOk (-1)] ++ cr) = true).
        { rewrite any_mark_app. cbn. apply orb_true_r. }
        assert (Mf : forall z, any_mark NextOr cr = z -> z = true ->
                 any_mark NextOr (cl ++ [Jt LogicOk (-1)] ++ cr) = true).
        { intros z Hz Hz'. rewrite any_mark_app. cbn [app]. unfold any_mark at 2. cbn.
          fold (any_mark NextOr cr). rewrite Hz, Hz'. apply orb_true_r. }
        specialize (IHl _ Pl Hokl Hll eq_refl C p tt (p + length cl + 1)%nat s w sc HC1).
        cbn [tmap eval_tree]. 
        destruct (eval_tree S (tmap dn l) w) as [v w1 | w1]; cbn [ebind]; [|exact IHl].
        assert (Go : steps S C (St S p s w sc) (St S (p + length cl + 1) s w1 sc) ->
          match eval_tree S (tmap dn r) w1 with
          | EOk v w' => leave C p s w sc (cl ++ [Jt LogicOk (-1)] ++ cr) tt ff v w'
          | EErr w' => fails S C (St S p s w sc) w'
          end).
        { intros H1. specialize (IHr _ Pr Hokr Hlr eq_refl C (p + length cl + 1)%nat tt ff s w1 sc HC2).
          destruct (eval_tree S (tmap dn r) w1) as [v2 w2 | w2].
          - unfold leave. rewrite Len. destruct IHr as [H | [(M & Ev & H) | (M & Ev & H)]].
            + left. eapply steps_trans; eauto.
            + congruence.
            + right; right. split; [eapply Mf; eauto | split; auto]. eapply steps_trans; eauto.
          - eapply fails_trans; eauto. }
        destruct IHl as [H | [(M & -> & H) | (M & -> & H)]].
        -- unfold truth. destruct (vbool S v) as [b|] eqn:Vb; cbn [ebind].
           ++ destruct b.
              ** right; left. split; [exact Ml|]. split; [reflexivity|].
                 eapply steps_trans; [exact H|]. apply steps_one.
                 unfold step. cbn [pc wd scs sk]. rewrite HN, Vb. unfold jump. cbn [pc wd scs sk].
                 replace (Z.of_nat (p + length cl) + (Z.of_nat tt - (Z.of_nat p + Z.of_nat (length cl))))
                   with (Z.of_nat tt) by lia.
                 destruct (Z.ltb_spec (Z.of_nat tt) 0); [lia|]. rewrite Nat2Z.id. reflexivity.
              ** apply Go. eapply steps_trans; [exact H|]. apply steps_one.
                 unfold step. cbn [pc wd scs sk]. rewrite HN, Vb. do 2 f_equal. lia.
           ++ eapply fails_trans; [exact H|]. apply fails_now.
              unfold step. cbn [pc wd scs sk]. rewrite HN, Vb. reflexivity.
        -- unfold truth. rewrite Hbool. cbn [ebind].
           right; left. split; [exact Ml|]. split; [reflexivity | exact H].
        -- unfold truth. rewrite Hbool. cbn [ebind]. apply Go. exact H.
      * (* && *)
        assert (No := no_or_under_and _ _ _ Hp').
        destruct No as (_ & Nol & Nor).
        destruct (ptree_no_or _ _ Nor (proj2 (proj2 (proj2 Hp'))) Hnr Er) as (Nr1 & Nr2).
        destruct (ptree_no_or _ _ Nol (proj1 (proj2 (proj2 Hp'))) Hnl El) as (Nl1 & Nl2).
        rewrite patch_app in HC. apply code_at_app in HC. destruct HC as (HC1 & HC2).
        rewrite patch_len in HC2. cbn [app patch] in HC2. rewrite Nr1 in HC2. apply code_at_cons in HC2.
        destruct HC2 as (HN & HC2).
        unfold f_of in HC1. cbn [app next_or] in HC1. rewrite Nr1 in HC1.
        replace (Z.of_nat p + Z.of_nat (length cl) + 1) with (Z.of_nat (p + length cl + 1)) in HC2 by lia.
        assert (Len : (p + length (cl ++ [Jnt NextOr (-1)] ++ cr) = p + length cl + 1 + length cr)%nat)
          by (rewrite !app_length; cbn; lia).
        assert (Ml : any_mark NextOr (cl ++ [Jnt NextOr (-1)] ++ cr) = true).
        { rewrite any_mark_app. cbn. apply orb_true_r. }
        specialize (IHl _ Pl Hokl Hll eq_refl C p tt ff s w sc HC1).
        cbn [tmap eval_tree].
        destruct (eval_tree S (tmap dn l) w) as [v w1 | w1]; cbn [ebind]; [|exact IHl].
        assert (Go : steps S C (St S p s w sc) (St S (p + length cl + 1) s w1 sc) ->
          match eval_tree S (tmap dn r) w1 with
          | EOk v w' => leave C p s w sc (cl ++ [Jnt NextOr (-1)] ++ cr) tt ff v w'
          | EErr w' => fails S C (St S p s w sc) w'
          end).
        { intros H1. specialize (IHr _ Pr Hokr Hlr eq_refl C (p + length cl + 1)%nat tt ff s w1 sc HC2).
          destruct (eval_tree S (tmap dn r) w1) as [v2 w2 | w2].
          - unfold leave. rewrite Len. destruct IHr as [H | [(M & Ev & H) | (M & Ev & H)]].
            + left. eapply steps_trans; eauto.
            + congruence.
            + right; right. split; [exact Ml | split; auto]. eapply steps_trans; eauto.
          - eapply fails_trans; eauto. }
        destruct IHl as [H | [(M & -> & H) | (M & -> & H)]].
        -- unfold truth. destruct (vbool S v) as [b|] eqn:Vb; cbn [ebind].
           ++ destruct b.
              ** apply Go. eapply steps_trans; [exact H|]. apply steps_one.
                 unfold step. cbn [pc wd scs sk]. rewrite HN, Vb. do 2 f_equal. lia.
              ** right; right. split; [exact Ml|]. split; [reflexivity|].
                 eapply steps_trans; [exact H|]. apply steps_one.
                 unfold step. cbn [pc wd scs sk]. rewrite HN, Vb. unfold jump. cbn [pc wd scs sk].
                 replace (Z.of_nat (p + length cl) + (Z.of_nat ff - (Z.of_nat p + Z.of_nat (length cl))))
                   with (Z.of_nat ff) by lia.
                 destruct (Z.ltb_spec (Z.of_nat ff) 0); [lia|]. rewrite Nat2Z.id. reflexivity.
           ++ eapply fails_trans; [exact H|]. apply fails_now.
              unfold step. cbn [pc wd scs sk]. rewrite HN, Vb. reflexivity.
        -- congruence.
        -- unfold truth. rewrite Hbool. cbn [ebind].
           right; right. split; [exact Ml|]. split; [reflexivity | exact H].
    + assert (Hn : all_ops nologic (Node o l r)).
      { destruct Hp as (H1 & H2 & _). split; [exact Ho|].
        split; [eapply nologic_subl | eapply nologic_sub]; eauto. }
      destruct (arith_tree _ _ Hn Hok Hl E) as (Hs & _ & _).
      rewrite patch_nomark in HC.
      2: { eapply ptree_nomark; [|exact Hnm|exact E]. apply tmap_all; auto. }
      specialize (Hs C p s w sc HC).
      destruct (eval_tree S (tmap dn (Node o l r)) w); [left; exact Hs | exact Hs].
Qed.

(** ** The whole expression. *)
Definition computes_args (c : code) (ds : list (W S -> ev (W S) (slot S))) : Prop :=
  forall C p s w sc, code_at C p c ->
  match eval_list S ds w with
  | EOk xs w' => steps S C (St S p s w sc) (St S (p + length c) (rev xs ++ s) w' sc)
  | EErr w' => fails S C (St S p s w sc) w'
  end.
Definition computes_ref (c : code) (d : W S -> ev (W S) (L S)) : Prop :=
  forall C p s w sc, code_at C p c ->
  match d w with
  | EOk l w' => steps S C (St S p s w sc) (St S (p + length c) (inr l :: s) w' sc)
  | EErr w' => fails S C (St S p s w sc) w'
  end.
(** Code that replaces the value on top of the stack. *)
Definition computes_from (c : code) (f : V S -> W S -> ev (W S) (V S)) : Prop :=
  forall C p s v w sc, code_at C p c ->
  match f v w with
  | EOk v' w' => steps S C (St S p (inl v :: s) w sc) (St S (p + length c) (inl v' :: s) w' sc)
  | EErr w' => fails S C (St S p (inl v :: s) w sc) w'
  end.

Lemma eval_list_len : forall A (ds : list (W S -> ev (W S) A)) w xs w',
  eval_list S ds w = EOk xs w' -> length xs = length ds.
Proof.
  induction ds as [|d ds IH]; intros w xs w' E.
  - inversion E; reflexivity.
  - cbn [eval_list] in E. destruct (d w) as [a w1|]; [|discriminate]. cbn [ebind] in E.
    destruct (eval_list S ds w1) as [r w2|] eqn:E1; [|discriminate]. cbn [ebind] in E.
    inversion E; subst. cbn [length]. f_equal. eapply IH; eauto.
Qed.
Lemma take_rev : forall (xs : list (slot S)) s acc, take_args S (length xs) (rev xs ++ s) acc = Some (xs ++ acc, s).
Proof.
  intros xs. induction xs as [|x xs IH] using rev_ind; intros s acc; [reflexivity|].
  rewrite app_length, rev_app_distr. cbn [length rev app]. rewrite Nat.add_1_r. cbn [take_args].
  rewrite IH. rewrite <- app_assoc. reflexivity.
Qed.
Lemma args_den_len : forall es, length (args_den S es) = length_es es.
Proof. fix IH 1. intros [|e es]; [reflexivity|]. cbn. f_equal. apply IH. Qed.

Notation comp_operand := (comp_operand foldk).
Notation comp_expr := (comp_expr foldk).
Notation comp_args := (comp_args foldk).
Notation comp_ops := (comp_ops foldk).
Notation comp_targets := (comp_targets foldk).
Notation comp_target := (comp_target foldk).
Notation ok_operand := (ok_operand foldk good).
Notation ok_expr := (ok_expr foldk good).
Notation ok_args := (ok_args foldk good).
Notation ok_ops := (ok_ops foldk good).
Notation ok_tern := (ok_tern foldk good).
Notation ok_targets := (ok_targets foldk good).
Notation ok_target := (ok_target foldk good).

Definition Qa (a : operand) := forall c, ok_operand a = true -> comp_operand a = Some c -> fact a c.
Definition Qe (e : expr) := forall c, ok_expr e = true -> comp_expr [] e = Some c -> fact (AParen e) c.
Definition Qes (es : exprs) := forall c, ok_args es = true -> comp_args es = Some c ->
  computes_args c (args_den S es).
Definition Qo (os : ops) := forall cs, comp_ops os = Some cs ->
  exists xs : list (bop * lf),
    cs = map (fun p => (fst p, snd (snd p))) xs /\
    ops_den S os = map (fun p => (fst p, dn (snd p))) xs /\
    ok_ops os = map (fun p => (fst p, inf (snd p))) xs /\
    const_ops foldk os = map (fun p => (fst p, kn (snd p))) xs /\
    Forall (fun p => ok_operand (fst (snd p)) = true -> lfact (snd p)) xs /\
    any_logic os = existsb (fun p => is_logic (fst p)) xs.
Definition Qt (tn : tern) := forall c, ok_tern tn = true -> tcode foldk tn = Some c ->
  computes_from c (eval_tern S tn).
Definition Qts (ts : targets) := forall c, ok_targets ts = true -> comp_targets ts = Some c ->
  computes_from c (eval_targets S ts).
Definition Qtg (t : target) := forall c, ok_target t = true -> comp_target t = Some c ->
  computes_ref c (eval_target S t).

Lemma ok_tree_leaves : forall t, ok_tree foldk good t = true -> leaves (fun i => i_ok i = true) t.
Proof.
  induction t as [i | o l IHl r IHr]; cbn; [auto|]. intros H. rewrite !andb_true_iff in H. intuition.
Qed.

Lemma marks_iff : forall T c, by_priority T -> leaves lfact T -> ptree (tmap snd T) = Some c ->
  (all_ops nologic T /\ nomark c) \/
  (~ all_ops nologic T /\ any_mark LogicOk c || any_mark NextOr c = true).
Proof.
  intros T c Hp Hl E.
  assert (Hnm : leaves nomark (tmap snd T)).
  { apply leaves_tmap. eapply leaves_impl; [|exact Hl]. intros a Hf. apply (f_okc _ _ Hf). }
  destruct T as [x | o l r].
  - left. split; [exact I|]. eapply ptree_nomark; [|exact Hnm|exact E]. exact I.
  - destruct (is_logic o) eqn:Ho.
    + right. split; [intros (H & _); red in H; congruence|].
      cbn [tmap ExprShape.ptree] in E. destruct (ptree (tmap snd l)) as [cl|]; [|discriminate].
      destruct (ptree (tmap snd r)) as [cr|]; [|discriminate].
      destruct o; try discriminate Ho; inversion E; subst; rewrite !any_mark_app; cbn;
        rewrite ?orb_true_r; reflexivity.
    + left. assert (Hn : all_ops nologic (Node o l r)).
      { destruct Hp as (H1 & H2 & _). split; [exact Ho|].
        split; [eapply nologic_subl | eapply nologic_sub]; eauto. }
      split; [exact Hn|]. eapply ptree_nomark; [|exact Hnm|exact E]. apply tmap_all; auto.
Qed.

Lemma jump_to : forall p t (s : list (slot S)) (w : W S) sc,
  jump S p (Z.of_nat t - Z.of_nat p) (St S p s w sc) = Next S (St S t s w sc).
Proof.
  intros. unfold jump. replace (Z.of_nat p + (Z.of_nat t - Z.of_nat p)) with (Z.of_nat t) by lia.
  destruct (Z.ltb_spec (Z.of_nat t) 0); [lia|]. rewrite Nat2Z.id. reflexivity.
Qed.
Lemma step_jmp : forall C p m off t s w sc, nth_error C p = Some (Jmp m off) ->
  off = Z.of_nat t - Z.of_nat p -> step S C (St S p s w sc) = Next S (St S t s w sc).
Proof. intros. unfold step. cbn [pc wd scs sk]. rewrite H, H0. apply jump_to. Qed.
Lemma step_loadk : forall C p k s w sc, nth_error C p = Some (LoadK k) ->
  step S C (St S p s w sc) = Next S (St S (p + 1) (inl (kval S k) :: s) w sc).
Proof. intros. unfold step. cbn [pc wd scs sk]. rewrite H. unfold pushed. do 2 f_equal. lia. Qed.

(** The epilogue. *)
Lemma logic_computes : forall T c,
  by_priority T -> ok_tree foldk good (tmap inf T) = true -> leaves lfact T ->
  ptree (tmap snd T) = Some c -> computes (logic_code c) (eval_tree S (tmap dn T)).
Proof.
  intros T c Hp Hok Hl E C p s w sc HC.
  pose proof (logic_tree T c Hp Hok Hl E) as HL.
  unfold logic_code, logic_end in *.
  destruct (any_mark LogicOk c || any_mark NextOr c) eqn:Hm.
  - cbn [firstn skipn app] in *. rewrite patch_len.
    rewrite <- patch_shift with (d := Z.of_nat p) in HC.
    set (n := length c) in *.
    destruct (any_mark LogicOk c) eqn:Mo, (any_mark NextOr c) eqn:Ma; cbn [andb] in *; try discriminate Hm;
      rewrite patch_app in HC; fold n in HC; apply code_at_app in HC; destruct HC as (HC & HT);
      rewrite patch_len in HT; fold n in HT;
      rewrite patch_nomark in HT by (repeat constructor);
      cbn [f_of next_or] in HC; unfold f_of in HC; cbn [next_or] in HC.
    + (* both *)
      specialize (HL C p (p + n + 1)%nat (p + n + 3)%nat s w sc).
      replace (Z.of_nat n + 1 + Z.of_nat p) with (Z.of_nat (p + n + 1)) in HC by lia.
      replace (Z.of_nat n + 3 + Z.of_nat p) with (Z.of_nat (p + n + 3)) in HC by lia.
      replace (Z.of_nat 0 + Z.of_nat p) with (Z.of_nat p) in HC by lia.
      specialize (HL HC). destruct (eval_tree S (tmap dn T) w) as [v w' | w']; [|exact HL].
      apply code_at_cons in HT. destruct HT as (N1 & HT).
      apply code_at_cons in HT. destruct HT as (N2 & HT).
      apply code_at_cons in HT. destruct HT as (N3 & HT).
      apply code_at_cons in HT. destruct HT as (N4 & _).
      rewrite app_length. fold n. cbn [length].
      destruct HL as [H | [(_ & -> & H) | (_ & -> & H)]].
      * eapply steps_trans; [exact H|]. fold n. apply steps_one.
        rewrite (step_jmp _ _ _ _ (p + (n + 4)) _ _ _ N1) by lia. reflexivity.
      * eapply steps_trans; [exact H|]. eapply steps_trans.
        { apply steps_one. apply step_loadk. exact N2. }
        apply steps_one. rewrite (step_jmp _ _ _ _ (p + (n + 4)) _ _ _ N3) by lia. reflexivity.
      * eapply steps_trans; [exact H|]. apply steps_one.
        replace (p + n + 3)%nat with (p + n + 1 + 1 + 1)%nat by lia.
        rewrite (step_loadk _ _ _ _ _ _ N4). do 2 f_equal. lia.
    + (* only || *)
      specialize (HL C p (p + n + 1)%nat (p + n)%nat s w sc).
      replace (Z.of_nat n + 1 + Z.of_nat p) with (Z.of_nat (p + n + 1)) in HC by lia.
      replace (Z.of_nat n + Z.of_nat p) with (Z.of_nat (p + n)) in HC by lia.
      replace (Z.of_nat 0 + Z.of_nat p) with (Z.of_nat p) in HC by lia.
      specialize (HL HC). destruct (eval_tree S (tmap dn T) w) as [v w' | w']; [|exact HL].
      apply code_at_cons in HT. destruct HT as (N1 & HT).
      apply code_at_cons in HT. destruct HT as (N2 & _).
      rewrite app_length. fold n. cbn [length].
      destruct HL as [H | [(_ & -> & H) | (M & -> & H)]]; [| |congruence].
      * eapply steps_trans; [exact H|]. fold n. apply steps_one.
        rewrite (step_jmp _ _ _ _ (p + (n + 2)) _ _ _ N1) by lia. reflexivity.
      * eapply steps_trans; [exact H|]. apply steps_one.
        rewrite (step_loadk _ _ _ _ _ _ N2). do 2 f_equal. lia.
    + (* only && *)
      specialize (HL C p (p + n)%nat (p + n + 1)%nat s w sc).
      replace (Z.of_nat n + 1 + Z.of_nat p) with (Z.of_nat (p + n + 1)) in HC by lia.
      replace (Z.of_nat n + Z.of_nat p) with (Z.of_nat (p + n)) in HC by lia.
      replace (Z.of_nat 0 + Z.of_nat p) with (Z.of_nat p) in HC by lia.
      specialize (HL HC). destruct (eval_tree S (tmap dn T) w) as [v w' | w']; [|exact HL].
      apply code_at_cons in HT. destruct HT as (N1 & HT).
      apply code_at_cons in HT. destruct HT as (N2 & _).
      rewrite app_length. fold n. cbn [length].
      destruct HL as [H | [(M & -> & H) | (_ & -> & H)]]; [|congruence|].
      * eapply steps_trans; [exact H|]. fold n. apply steps_one.
        rewrite (step_jmp _ _ _ _ (p + (n + 2)) _ _ _ N1) by lia. reflexivity.
      * eapply steps_trans; [exact H|]. apply steps_one.
        rewrite (step_loadk _ _ _ _ _ _ N2). do 2 f_equal. lia.
  - destruct (marks_iff _ _ Hp Hl E) as [(_ & Hn) | (_ & Hx)]; [|congruence].
    specialize (HL C p p p s w sc). rewrite patch_nomark in HL by auto. specialize (HL HC).
    destruct (eval_tree S (tmap dn T) w) as [v w' | w']; [|exact HL].
    apply orb_false_iff in Hm. destruct Hm as (M1 & M2).
    destruct HL as [H | [(M & _) | (M & _)]]; [exact H | congruence | congruence].
Qed.

Lemma computes_seq : forall c1 c2 d f, computes c1 d -> computes_from c2 f ->
  computes (c1 ++ c2) (fun w => ebind (d w) f).
Proof.
  intros c1 c2 d f H1 H2 C p s w sc HC. apply code_at_app in HC. destruct HC as (A & B).
  specialize (H1 C p s w sc A). destruct (d w) as [v w1 | w1]; cbn [ebind]; [|exact H1].
  specialize (H2 C _ s v w1 sc B). rewrite app_length, Nat.add_assoc.
  destruct (f v w1); [eapply steps_trans | eapply fails_trans]; eauto.
Qed.
Lemma from_seq : forall c1 c2 f g, computes_from c1 f -> computes_from c2 g ->
  computes_from (c1 ++ c2) (fun v w => ebind (f v w) g).
Proof.
  intros c1 c2 f g H1 H2 C p s v w sc HC. apply code_at_app in HC. destruct HC as (A & B).
  specialize (H1 C p s v w sc A). destruct (f v w) as [v1 w1 | w1]; cbn [ebind]; [|exact H1].
  specialize (H2 C _ s v1 w1 sc B). rewrite app_length, Nat.add_assoc.
  destruct (g v1 w1); [eapply steps_trans | eapply fails_trans]; eauto.
Qed.
Lemma from_nil : forall (f : V S -> W S -> ev (W S) (V S)), (forall v w, f v w = EOk v w) -> computes_from [] f.
Proof. intros f Hf C p s v w sc _. rewrite Hf. cbn. rewrite Nat.add_0_r. constructor. Qed.

Lemma single_fact : forall a i (f : W S -> V S),
  (forall w, eval_operand S a w = EOk (f w) w) ->
  (forall C p s w sc, nth_error C p = Some i ->
     step S C (St S p s w sc) = Next S (St S (p + 1) (inl (f w) :: s) w sc)) ->
  (jumpy a = false) -> (forall k, i = LoadK k -> const_operand foldk a = Some k) ->
  (forall t, type_leaf a = Some t -> i = LoadType t) ->
  (forall x, i = LoadVar x <-> bare_operand a = Some x) ->
  unmarked i -> fact a [i].
Proof.
  intros a i f He Hs Hj Hk Ht Hb Hu. constructor.
  - intros C p s w sc HC. rewrite He. apply code_at_cons in HC. apply steps_one. cbn [length]. apply Hs, HC.
  - intros _. left; eauto.
  - congruence.
  - intros k E. inversion E; auto.
  - intros t E. rewrite (Ht _ E). reflexivity.
  - intros x. rewrite <- Hb. split; [intros E; inversion E; auto | intros ->; reflexivity].
  - split; [discriminate|]. split; [reflexivity|]. constructor; auto.
Qed.

Lemma op_fact : forall a c i,
  computes (c ++ [i]) (eval_operand S a) -> load i = false ->
  (forall x, i <> LoadVar x) ->
  jumpy a = false -> type_leaf a = None -> bare_operand a = None -> okc (c ++ [i]) -> fact a (c ++ [i]).
Proof.
  intros a c i Hs Hi Hv Hj Ht Hb Ho. constructor; auto.
  - intros _. right; eauto.
  - congruence.
  - intros k E. destruct c as [|? [|? ?]]; [|discriminate|discriminate]. inversion E; subst. discriminate.
  - congruence.
  - intros x. rewrite Hb. split; [|discriminate]. intros E.
    destruct c as [|? [|? ?]]; [|discriminate|discriminate]. inversion E; subst. exfalso; eapply Hv; eauto.
Qed.

Lemma jumpy_tern : forall hd tl e1 e2, jumpy (AParen (Expr TgNil hd tl (TSome e1 e2))) = true.
Proof. intros hd [|] e1 e2; reflexivity. Qed.
Lemma ternish_tern : forall hd tl e1 e2, ternish (AParen (Expr TgNil hd tl (TSome e1 e2))) = true.
Proof. intros hd [|] e1 e2; reflexivity. Qed.

Lemma sim_all :
  (forall a, Qa a) /\ (forall e, Qe e) /\ (forall es, Qes es) /\ (forall os, Qo os) /\
  (forall tn, Qt tn) /\ (forall ts, Qts ts) /\ (forall t, Qtg t).
Proof.
  apply syntax_ind.
  - intros k c _ E; inversion E; subst. apply single_fact with (f := fun _ => kval S k); try reflexivity; try discriminate; try exact I.
    + intros. unfold step. cbn [pc wd scs sk]. rewrite H. unfold pushed. do 2 f_equal; lia.
    + intros k' Ek; inversion Ek; reflexivity.
    + intros x; split; discriminate.
  - intros c _ E; inversion E; subst. apply single_fact with (f := fun _ => undefv S); try reflexivity; try discriminate; try exact I.
    + intros. unfold step. cbn [pc wd scs sk]. rewrite H. unfold pushed. do 2 f_equal; lia.
    + intros x; split; discriminate.
  - intros c _ E; inversion E; subst. apply single_fact with (f := fun _ => nullv S); try reflexivity; try discriminate; try exact I.
    + intros. unfold step. cbn [pc wd scs sk]. rewrite H. unfold pushed. do 2 f_equal; lia.
    + intros x; split; discriminate.
  - intros g c _ E; inversion E; subst. apply single_fact with (f := fun _ => funv S g); try reflexivity; try discriminate; try exact I.
    + intros. unfold step. cbn [pc wd scs sk]. rewrite H. unfold pushed. do 2 f_equal; lia.
    + intros x; split; discriminate.
  - intros g c _ E; inversion E; subst. apply single_fact with (f := fun _ => typev S g); try reflexivity; try discriminate; try exact I.
    + intros. unfold step. cbn [pc wd scs sk]. rewrite H. unfold pushed. do 2 f_equal; lia.
    + intros t Et; inversion Et; reflexivity.
    + intros x; split; discriminate.
  - intros x c _ E; inversion E; subst. apply single_fact with (f := fun w => vget S w x); try reflexivity; try discriminate; try exact I.
    + intros. unfold step. cbn [pc wd scs sk]. rewrite H. unfold pushed. do 2 f_equal; lia.
    + intros y; split; intros Ey; inversion Ey; reflexivity.
  - (* ++ -- *)
    intros pst inc t IH c Hok E. pose proof (shape_operand foldk _ _ E) as Hs.
    rewrite comp_incdec_eq in E.
    destruct (comp_target t) as [ct|] eqn:Et; [|discriminate]. inversion E; subst.
    apply op_fact; try reflexivity; try discriminate; auto.
    intros C p s w sc HC. apply code_at_app in HC. destruct HC as (HC & HC2).
    apply code_at_cons in HC2. destruct HC2 as (HN & _).
    specialize (IH _ Hok Et C p s w sc HC).
    change (eval_operand S (AIncDec pst inc t) w) with
      (ebind (eval_target S t w) (fun l w1 => incdec S pst inc l w1)).
    destruct (eval_target S t w) as [l w1 | w1]; cbn [ebind]; [|exact IH].
    assert (Es : step S C (St S (p + length ct) (inr l :: s) w1 sc) =
      of_ev S (incdec S pst inc l w1) (fun v w' => pushed S false (p + length ct) (inl v) s w' sc)).
    { unfold step. cbn [pc wd scs sk]. rewrite HN. reflexivity. }
    destruct (incdec S pst inc l w1) as [v w2 | w2]; cbn [of_ev] in Es.
    + eapply steps_trans; [exact IH|]. apply steps_one. rewrite Es. unfold pushed. do 2 f_equal.
      rewrite app_length; cbn; lia.
    + eapply fails_trans; [exact IH|]. apply fails_now; auto.
  - (* operations with arguments *)
    intros q es IH c Hok E. pose proof (shape_operand foldk _ _ E) as Hs. rewrite comp_prim_eq in E.
    destruct (comp_args es) as [ct|] eqn:Et; [|discriminate]. inversion E; subst.
    apply op_fact; try reflexivity; try discriminate; auto.
    intros C p s w sc HC. apply code_at_app in HC. destruct HC as (HC & HC2).
    apply code_at_cons in HC2. destruct HC2 as (HN & _).
    specialize (IH _ Hok Et C p s w sc HC).
    change (eval_operand S (APrim q es) w) with
      (ebind (eval_list S (args_den S es) w) (fun xs w1 => prim S q xs w1)).
    destruct (eval_list S (args_den S es) w) as [xs w1 | w1] eqn:El; cbn [ebind]; [|exact IH].
    assert (Hlen : length_es es = length xs).
    { rewrite (eval_list_len _ _ _ _ _ El). symmetry. apply args_den_len. }
    assert (Es : step S C (St S (p + length ct) (rev xs ++ s) w1 sc) =
      of_ev S (prim S q xs w1) (fun v w' => pushed S false (p + length ct) (inl v) s w' sc)).
    { unfold step. cbn [pc wd scs sk]. rewrite HN, Hlen, take_rev, app_nil_r. reflexivity. }
    destruct (prim S q xs w1) as [v w2 | w2]; cbn [of_ev] in Es.
    + eapply steps_trans; [exact IH|]. apply steps_one. rewrite Es. unfold pushed. do 2 f_equal.
      rewrite app_length; cbn; lia.
    + eapply fails_trans; [exact IH|]. apply fails_now; auto.
  - (* parentheses *) intros e IH c Hok E. exact (IH _ Hok E).
  - (* prefix operators *)
    intros u a IH c Hok E. pose proof (shape_operand foldk _ _ E) as Hs. rewrite comp_un_eq in E.
    destruct (comp_operand a) as [ct|] eqn:Et; [|discriminate]. inversion E; subst.
    apply op_fact; try reflexivity; try discriminate; auto.
    intros C p s w sc HC. apply code_at_app in HC. destruct HC as (HC & HC2).
    apply code_at_cons in HC2. destruct HC2 as (HN & _).
    pose proof (f_sim _ _ (IH _ Hok Et) C p s w sc HC) as H.
    change (eval_operand S (AUn u a) w) with
      (ebind (eval_operand S a w) (fun v w1 => unop S u v w1)).
    destruct (eval_operand S a w) as [v w1 | w1]; cbn [ebind]; [|exact H].
    assert (Es : step S C (St S (p + length ct) (inl v :: s) w1 sc) =
      of_ev S (unop S u v w1) (fun v w' => pushed S false (p + length ct) (inl v) s w' sc)).
    { unfold step. cbn [pc wd scs sk]. rewrite HN. reflexivity. }
    destruct (unop S u v w1) as [v' w2 | w2]; cbn [of_ev] in Es.
    + eapply steps_trans; [exact H|]. apply steps_one. rewrite Es. unfold pushed. do 2 f_equal.
      rewrite app_length; cbn; lia.
    + eapply fails_trans; [exact H|]. apply fails_now; auto.
  - (* expressions *)
    intros ts Hts hd Hhd tl Htl tn Htn c Hok E.
    assert (Okc := proj2 (shape_expr foldk _) _ E).
    destruct (comp_expr_inv _ _ _ _ _ _ E) as (cts & chd & ctl & t & ct & Ets & Eh & El & Ep & Et & Ec).
    change (ok_expr (Expr ts hd tl tn)) with
      (ok_targets ts && ok_tern tn &&
       ok_tree foldk good (tree_of (inf (hd, chd)) (ok_ops tl))) in Hok.
    rewrite !andb_true_iff in Hok. destruct Hok as ((Ok1 & Ok2) & Ok3).
    destruct (Htl _ El) as (xs & X1 & X2 & X3 & X4 & X5 & X6).
    set (T := tree_of (hd, chd) xs).
    assert (T1 : tree_of chd ctl = tmap snd T).
    { unfold T. rewrite X1. rewrite <- tree_of_tmap. reflexivity. }
    assert (T2 : tree_of (eval_operand S hd, type_leaf hd) (ops_den S tl) = tmap dn T).
    { unfold T. rewrite X2. rewrite <- tree_of_tmap. reflexivity. }
    rewrite X3, tree_of_tmap in Ok3. fold T in Ok3.
    assert (T4 : tree_of (const_operand foldk hd) (const_ops foldk tl) = tmap kn T).
    { unfold T. rewrite X4. rewrite <- tree_of_tmap. reflexivity. }
    destruct (tree_of_spec (hd, chd) xs) as (Tp & Tf & Tr). fold T in Tp, Tf, Tr.
    assert (TL : leaves lfact T).
    { pose proof (ok_tree_leaves _ Ok3) as Lk. apply leaves_tmap in Lk.
      apply leaves_tree_of in Lk. apply leaves_tree_of. destruct Lk as (L1 & L2). split.
      - apply (Hhd _ L1 Eh).
      - rewrite Forall_forall in *. intros p Hp. apply X5; auto. apply (L2 p Hp). }
    rewrite T1 in Ep.
    assert (Hsim := logic_computes T t Tp Ok3 TL Ep).
    assert (Hnl : any_logic tl = false <-> all_ops nologic T).
    { rewrite X6, all_ops_toks, Tr, Forall_forall. split.
      - intros H p Hp. red. destruct (is_logic (fst p)) eqn:Hq; [|reflexivity].
        assert (existsb (fun p => is_logic (fst p)) xs = true) by (apply existsb_exists; eauto). congruence.
      - intros H. destruct (existsb _ xs) eqn:Hx; [|reflexivity].
        apply existsb_exists in Hx. destruct Hx as (p & Hp & Hq). exact (eq_trans (eq_sym Hq) (H _ Hp)). }
    assert (Onil : tl = ONil -> xs = [] /\ t = chd /\ logic_code t = t).
    { intros ->. cbn in El. inversion El; subst ctl. symmetry in H0.
      destruct xs; [|discriminate]. unfold T, tree_of in Ep. cbn in Ep. inversion Ep; subst.
      split; [auto|]. split; [auto|]. apply logic_code_nomark. destruct (shape_operand foldk _ _ Eh) as (_ & _ & Hm).
      exact Hm. }
    assert (Ocons : tl <> ONil -> exists o l r, T = Node o l r).
    { intros Hn. destruct T as [x | o l r] eqn:HT; [|eauto]. exfalso. cbn in Tr. subst xs.
      apply Hn. destruct tl; [reflexivity|]. cbn in X2. discriminate. }
    assert (Oc : okl t).
    { eapply okl_ptree; [|exact Ep]. apply okl_leaves; auto. }
    assert (Tgt : ts = TgNil /\ cts = [] \/ ts <> TgNil /\ exists c' a, cts = c' ++ [Asg a false]).
    { destruct ts as [|tg a ts'].
      - cbn in Ets. inversion Ets; auto.
      - right. split; [discriminate|].
        pose proof (proj1 (proj2 (proj2 (proj2 (proj2 (proj2 (shape_all foldk)))))) _ _ Ets) as (_ & [-> | H]); auto.
        exfalso. rewrite comp_targets_eq in Ets. destruct (comp_target tg); [|discriminate].
        destruct (comp_targets ts'); [|discriminate]. inversion Ets. destruct c0; discriminate. }
    constructor.
    + (* simulation *)
      subst c. intros C p s w sc HC.
      change (eval_operand S (AParen (Expr ts hd tl tn)) w) with
        (ebind (eval_tree S (tree_of (eval_operand S hd, type_leaf hd) (ops_den S tl)) w)
           (fun v w1 => ebind (eval_tern S tn v w1) (eval_targets S ts))).
      rewrite T2.
      refine (computes_seq _ _ _ _ Hsim _ C p s w sc HC).
      apply from_seq; [apply Htn; auto | apply Hts; auto].
    + intros Hj. destruct Tgt as [(-> & ->) | (_ & c' & a & ->)].
      * destruct tn as [|e1 e2]; [|rewrite jumpy_tern in Hj; discriminate]. cbn in Et. inversion Et; subst ct.
        rewrite !app_nil_r in Ec. subst c.
        destruct (Hnl) as (N1 & N2).
        destruct tl as [|o a tl'].
        -- destruct (Onil eq_refl) as (_ & Et' & ->). subst t.
           apply (f_tidy _ _ (Hhd _ (proj1 (proj1 (leaves_tree_of _ _ _ _) (proj1 (leaves_tmap _ _ _ _ _) (ok_tree_leaves _ Ok3)))) Eh)).
           exact Hj.
        -- cbn [jumpy] in Hj. assert (Hn := N1 Hj).
           destruct (Ocons ltac:(discriminate)) as (o' & l & r & HT).
           destruct (arith_tree T t Hn Ok3 TL Ep) as (_ & Htd & _). rewrite HT in Htd.
           destruct (marks_iff _ _ Tp TL Ep) as [(_ & Hm) | (Hm & _)]; [|contradiction].
           rewrite logic_code_nomark by auto. apply Htd.
      * right. exists (logic_code t ++ ct ++ c'), (Asg a false). subst c. rewrite <- !app_assoc. auto.
    + intros Hj Htr. destruct Tgt as [(-> & ->) | (Hn & _)].
      * destruct tn as [|e1 e2]; [|rewrite ternish_tern in Htr; discriminate]. cbn in Et. inversion Et; subst ct.
        rewrite !app_nil_r in Ec. subst c.
        destruct tl as [|o a tl'].
        -- destruct (Onil eq_refl) as (_ & Et' & ->). subst t.
           apply (f_jk _ _ (Hhd _ (proj1 (proj1 (leaves_tree_of _ _ _ _) (proj1 (leaves_tmap _ _ _ _ _) (ok_tree_leaves _ Ok3)))) Eh)); [exact Hj | exact Htr].
        -- cbn [jumpy] in Hj.
           destruct (marks_iff _ _ Tp TL Ep) as [(Hn & _) | (_ & Hm)].
           { apply Hnl in Hn. congruence. }
           destruct (logic_code_shape t) as [(Hm' & _) | (_ & c' & k & Hs)]; [congruence|].
           rewrite Hs. exists c', NoMark, 2, k. reflexivity.
      * destruct ts; [congruence|]. discriminate Hj.
    + intros k Ek. assert (Hts0 : ts = TgNil /\ cts = []).
      { destruct Tgt as [H | (_ & c' & a & ->)]; [exact H|]. exfalso. subst c.
        rewrite !app_assoc in Ek. apply (app_inj_tail _ [] _ (LoadK k)) in Ek. destruct Ek; discriminate. }
      destruct Hts0 as (-> & ->).
      assert (Len : (1 <= length (logic_code t))%nat).
      { pose proof (logic_code_len t). destruct Oc as (No & _). destruct t; [congruence | cbn in *; lia]. }
      assert (Htn0 : tn = TNone /\ ct = []).
      { destruct tn as [|e1 e2]; [cbn in Et; inversion Et; auto|]. exfalso.
        cbn [tcode] in Et. destruct (comp_expr [] e1); [|discriminate]. destruct (comp_expr [] e2); [|discriminate].
        inversion Et; subst ct c. apply (f_equal (@length _)) in Ek. rewrite !app_length in Ek. cbn in Ek. lia. }
      destruct Htn0 as (-> & ->). rewrite !app_nil_r in Ec.
      change (const_operand foldk (AParen (Expr TgNil hd tl TNone))) with
        (const_tree foldk (tree_of (const_operand foldk hd) (const_ops foldk tl))).
      rewrite T4.
      destruct (logic_code_shape t) as [(Hm' & Hs) | (_ & c' & k' & Hs)].
      * rewrite Hs in Ec. subst c. destruct (marks_iff _ _ Tp TL Ep) as [(Hn & _) | (_ & Hm)]; [|congruence].
        destruct (arith_tree T t Hn Ok3 TL Ep) as (_ & _ & Hk). apply Hk; auto.
      * exfalso. rewrite Ec, Hs in Ek. apply (f_equal (@length _)) in Ek. rewrite app_length in Ek. cbn in Ek. lia.
    + discriminate.
    + intros x. split.
      * intros Ek. assert (Hts0 : ts = TgNil /\ cts = []).
        { destruct Tgt as [H | (_ & c' & a & ->)]; [exact H|]. exfalso. subst c.
          rewrite !app_assoc in Ek. apply (app_inj_tail _ [] _ (LoadVar x)) in Ek. destruct Ek; discriminate. }
        destruct Hts0 as (-> & ->).
        assert (Len : (1 <= length (logic_code t))%nat).
        { pose proof (logic_code_len t). destruct Oc as (No & _). destruct t; [congruence | cbn in *; lia]. }
        assert (Htn0 : tn = TNone /\ ct = []).
        { destruct tn as [|e1 e2]; [cbn in Et; inversion Et; auto|]. exfalso.
          cbn [tcode] in Et. destruct (comp_expr [] e1); [|discriminate]. destruct (comp_expr [] e2); [|discriminate].
          inversion Et; subst ct c. apply (f_equal (@length _)) in Ek. rewrite !app_length in Ek. cbn in Ek. lia. }
        destruct Htn0 as (-> & ->). rewrite !app_nil_r in Ec.
        destruct (logic_code_shape t) as [(Hm' & Hs) | (_ & c' & k' & Hs)].
        -- rewrite Hs in Ec.
           destruct tl as [|o a tl'].
           ++ destruct (Onil eq_refl) as (_ & Et' & _).
              apply (f_bare _ _ (Hhd _ (proj1 (proj1 (leaves_tree_of _ _ _ _) (proj1 (leaves_tmap _ _ _ _ _) (ok_tree_leaves _ Ok3)))) Eh)).
              congruence.
           ++ exfalso. destruct (marks_iff _ _ Tp TL Ep) as [(Hn & _) | (_ & Hm)]; [|congruence].
              destruct (Ocons ltac:(discriminate)) as (o' & l & r & HT).
              destruct (arith_tree T t Hn Ok3 TL Ep) as (_ & Hk & _). rewrite HT in Hk. apply (proj2 Hk x). congruence.
        -- exfalso. rewrite Ec, Hs in Ek. apply (f_equal (@length _)) in Ek. rewrite app_length in Ek. cbn in Ek. lia.
      * intros Hb. destruct ts; [|discriminate]. destruct tl; [|discriminate]. destruct tn; [|discriminate].
        destruct Tgt as [(_ & ->) | (Hn & _)]; [|congruence]. cbn in Et. inversion Et; subst ct.
        destruct (Onil eq_refl) as (_ & Et' & Hlc). rewrite Hlc in Ec. subst t. rewrite !app_nil_r in Ec. subst c.
        apply (f_bare _ _ (Hhd _ (proj1 (proj1 (leaves_tree_of _ _ _ _) (proj1 (leaves_tmap _ _ _ _ _) (ok_tree_leaves _ Ok3)))) Eh)).
        exact Hb.
    + exact Okc.
  - (* no arguments *)
    intros c _ E; inversion E; subst. intros C p s w sc _. cbn. rewrite Nat.add_0_r. constructor.
  - intros e He es Hes c Hok E. rewrite comp_args_eq in E.
    change (ok_args (ECons e es)) with (ok_expr e && ok_args es) in Hok.
    apply andb_true_iff in Hok. destruct Hok as (Ok1 & Ok2).
    destruct (comp_expr [] e) as [ce|] eqn:Ee; [|discriminate].
    destruct (comp_args es) as [ces|] eqn:Ees; [|discriminate]. inversion E; subst; clear E.
    specialize (He _ Ok1 Ee). specialize (Hes _ Ok2 Ees).
    intros C p s w sc HC. apply code_at_app in HC. destruct HC as (HC1 & HC2).
    assert (HA : forall d, args_den S (ECons e es) = d :: args_den S es ->
       match d w with
       | EOk v w' => steps S C (St S p s w sc) (St S (p + length (as_arg ce)) (v :: s) w' sc)
       | EErr w' => fails S C (St S p s w sc) w'
       end).
    { intros d Hd.
      assert (Hd' : d = match bare e with
               | Some (Local n) => fun w => EOk (inr (lvar S (Local n))) w
               | Some (Global n) => fun w => EOk (inr (lvar S (Global n))) w
               | _ => fun w => ebind (eval_expr S e w) (fun v w1 => EOk (inl v) w1)
               end) by (cbn in Hd; inversion Hd; reflexivity).
      subst d. clear Hd.
      assert (Plain : as_arg ce = ce ->
        match ebind (eval_expr S e w) (fun v w1 => EOk (inl v) w1) with
        | EOk v w' => steps S C (St S p s w sc) (St S (p + length (as_arg ce)) (v :: s) w' sc)
        | EErr w' => fails S C (St S p s w sc) w'
        end).
      { intros Ha. rewrite Ha in *. pose proof (f_sim _ _ He C p s w sc HC1) as H.
        change (eval_operand S (AParen e) w) with (eval_expr S e w) in H.
        destruct (eval_expr S e w); cbn [ebind]; exact H. }
      pose proof (f_bare _ _ He) as Hb. change (bare_operand (AParen e)) with (bare e) in Hb.
      destruct (bare e) as [[n | n | n]|] eqn:Eb.
      - destruct (Hb (Local n)) as (_ & H2). rewrite (H2 eq_refl) in *. cbn [as_arg] in *.
        apply code_at_cons in HC1. destruct HC1 as (HN & _). apply steps_one.
        unfold step. cbn [pc wd scs sk]. rewrite HN. unfold pushed. cbn [length]. do 2 f_equal; lia.
      - apply Plain. destruct (Hb (This n)) as (_ & H2). rewrite (H2 eq_refl). reflexivity.
      - destruct (Hb (Global n)) as (_ & H2). rewrite (H2 eq_refl) in *. cbn [as_arg] in *.
        apply code_at_cons in HC1. destruct HC1 as (HN & _). apply steps_one.
        unfold step. cbn [pc wd scs sk]. rewrite HN. unfold pushed. cbn [length]. do 2 f_equal; lia.
      - apply Plain. destruct ce as [|[] [|? ?]]; try reflexivity; destruct x; try reflexivity;
          exfalso; match goal with |- _ => pose proof (proj1 (Hb _) eq_refl); discriminate end. }
    assert (Hd : exists d, args_den S (ECons e es) = d :: args_den S es) by (eexists; reflexivity).
    destruct Hd as (d & Hd). specialize (HA d Hd). rewrite Hd. cbn [eval_list].
    destruct (d w) as [v w1 | w1]; cbn [ebind]; [|exact HA].
    specialize (Hes C _ (v :: s) w1 sc HC2).
    destruct (eval_list S (args_den S es) w1) as [xs w2 | w2]; cbn [ebind].
    + eapply steps_trans; [exact HA|]. cbn [rev]. rewrite <- app_assoc. cbn [app].
      rewrite app_length, Nat.add_assoc. exact Hes.
    + eapply fails_trans; eauto.
  - (* operator lists *)
    intros cs E. inversion E; subst. exists []. cbn. auto 10.
  - intros o a Ha os Hos cs E. rewrite comp_ops_eq in E.
    destruct (comp_operand a) as [ca|] eqn:Ea; [|discriminate].
    destruct (comp_ops os) as [cos|] eqn:Eo; [|discriminate]. inversion E; subst; clear E.
    destruct (Hos _ Eo) as (xs & X1 & X2 & X3 & X4 & X5 & X6).
    exists ((o, (a, ca)) :: xs). cbn [map fst snd]. repeat split.
    + rewrite X1. reflexivity.
    + cbn [ops_den]. fold (ops_den S). rewrite X2. reflexivity.
    + change (ok_ops (OCons o a os)) with ((o, inf (a, ca)) :: ok_ops os). rewrite X3. reflexivity.
    + change (const_ops foldk (OCons o a os)) with ((o, kn (a, ca)) :: const_ops foldk os). rewrite X4. reflexivity.
    + constructor; [|exact X5]. cbn. intros Hk. apply (Ha _ Hk Ea).
    + cbn. rewrite X6. reflexivity.
  - (* ternary *)
    intros c _ E. inversion E; subst. apply from_nil. reflexivity.
  - intros e1 H1 e2 H2 c Hok E. cbn [tcode] in E.
    change (ok_tern (TSome e1 e2)) with (ok_expr e1 && ok_expr e2) in Hok.
    apply andb_true_iff in Hok. destruct Hok as (Ok1 & Ok2).
    destruct (comp_expr [] e1) as [c1|] eqn:E1; [|discriminate].
    destruct (comp_expr [] e2) as [c2|] eqn:E2; [|discriminate]. inversion E; subst; clear E.
    pose proof (f_sim _ _ (H1 _ Ok1 E1)) as S1. pose proof (f_sim _ _ (H2 _ Ok2 E2)) as S2.
    intros C p s v w sc HC. cbn [app] in HC.
    apply code_at_cons in HC. destruct HC as (N1 & HC).
    apply code_at_app in HC. destruct HC as (HC1 & HC).
    apply code_at_cons in HC. destruct HC as (N2 & HC2).
    change (eval_tern S (TSome e1 e2) v w) with
      (ebind (truth S v w) (fun b w1 => if b then eval_expr S e1 w1 else eval_expr S e2 w1)).
    unfold truth. destruct (vbool S v) as [[|]|] eqn:Vb; cbn [ebind].
    + assert (Hstep : steps S C (St S p (inl v :: s) w sc) (St S (p + 1) s w sc)).
      { apply steps_one. unfold step. cbn [pc wd scs sk]. rewrite N1, Vb. do 2 f_equal. lia. }
      specialize (S1 C _ s w sc HC1). change (eval_operand S (AParen e1) w) with (eval_expr S e1 w) in S1.
      destruct (eval_expr S e1 w) as [v' w' | w'].
      * eapply steps_trans; [exact Hstep|]. eapply steps_trans; [exact S1|]. apply steps_one.
        eapply step_jmp; [exact N2|]. cbn [app length]. rewrite app_length. cbn [length]. lia.
      * eapply fails_trans; eauto.
    + assert (Hstep : steps S C (St S p (inl v :: s) w sc) (St S (p + 1 + length c1 + 1) s w sc)).
      { apply steps_one. unfold step. cbn [pc wd scs sk]. rewrite N1, Vb.
        replace (Z.of_nat (length c1) + 2) with (Z.of_nat (p + 1 + length c1 + 1) - Z.of_nat p) by lia.
        apply jump_to. }
      specialize (S2 C _ s w sc HC2). change (eval_operand S (AParen e2) w) with (eval_expr S e2 w) in S2.
      destruct (eval_expr S e2 w) as [v' w' | w'].
      * eapply steps_trans; [exact Hstep|].
        match goal with |- steps _ _ _ (St _ ?q _ _ _) =>
          replace q with (p + 1 + length c1 + 1 + length c2)%nat end; [exact S2|].
        cbn [app length]. rewrite app_length. cbn [length]. lia.
      * eapply fails_trans; eauto.
    + apply fails_now. unfold step. cbn [pc wd scs sk]. rewrite N1, Vb. reflexivity.
  - (* assignments *)
    intros c _ E. inversion E; subst. apply from_nil. reflexivity.
  - intros t Ht a ts Hts c Hok E. rewrite comp_targets_eq in E.
    change (ok_targets (TgCons t a ts)) with (ok_target t && ok_targets ts) in Hok.
    apply andb_true_iff in Hok. destruct Hok as (Ok1 & Ok2).
    destruct (comp_target t) as [ct|] eqn:Et; [|discriminate].
    destruct (comp_targets ts) as [cts|] eqn:Ets; [|discriminate]. inversion E; subst; clear E.
    specialize (Ht _ Ok1 Et). specialize (Hts _ Ok2 Ets).
    intros C p s v w sc HC. apply code_at_app in HC. destruct HC as (HC1 & HC).
    cbn [app] in HC. apply code_at_cons in HC. destruct HC as (HN & HC2).
    specialize (Ht C p (inl v :: s) w sc HC1).
    change (eval_targets S (TgCons t a ts) v w) with
      (ebind (eval_target S t w) (fun l w1 => ebind (assign S a l v w1) (eval_targets S ts))).
    destruct (eval_target S t w) as [l w1 | w1]; cbn [ebind]; [|exact Ht].
    assert (Es : step S C (St S (p + length ct) (inr l :: inl v :: s) w1 sc) =
      of_ev S (assign S a l v w1) (fun v w' => pushed S false (p + length ct) (inl v) s w' sc)).
    { unfold step. cbn [pc wd scs sk]. rewrite HN. reflexivity. }
    destruct (assign S a l v w1) as [v2 w2 | w2]; cbn [of_ev ebind] in *.
    + assert (Go : steps S C (St S p (inl v :: s) w sc) (St S (p + length ct + 1) (inl v2 :: s) w2 sc)).
      { eapply steps_trans; [exact Ht|]. apply steps_one. rewrite Es. unfold pushed. do 2 f_equal. lia. }
      specialize (Hts C _ s v2 w2 sc HC2). destruct (eval_targets S ts v2 w2) as [v3 w3 | w3].
      * eapply steps_trans; [exact Go|]. rewrite app_length. cbn [app length].
        replace (p + (length ct + Datatypes.S (length cts)))%nat with (p + length ct + 1 + length cts)%nat by lia.
        exact Hts.
      * eapply fails_trans; eauto.
    + eapply fails_trans; [exact Ht|]. apply fails_now; auto.
  - (* targets *)
    intros x c _ E; inversion E; subst. intros C p s w sc HC. cbn [eval_target].
    apply code_at_cons in HC. destruct HC as (HN & _). apply steps_one.
    unfold step. cbn [pc wd scs sk]. rewrite HN. unfold pushed. cbn [length]. do 2 f_equal. lia.
  - intros q es IH c Hok E. rewrite comp_target_eq in E.
    destruct (comp_args es) as [ct|] eqn:Et; [|discriminate]. inversion E; subst.
    intros C p s w sc HC. apply code_at_app in HC. destruct HC as (HC & HC2).
    apply code_at_cons in HC2. destruct HC2 as (HN & _).
    specialize (IH _ Hok Et C p s w sc HC).
    change (eval_target S (TPrim q es) w) with
      (ebind (eval_list S (args_den S es) w) (fun xs w1 => lprim S q xs w1)).
    destruct (eval_list S (args_den S es) w) as [xs w1 | w1] eqn:El; cbn [ebind]; [|exact IH].
    assert (Hlen : length_es es = length xs).
    { rewrite (eval_list_len _ _ _ _ _ El). symmetry. apply args_den_len. }
    assert (Es : step S C (St S (p + length ct) (rev xs ++ s) w1 sc) =
      of_ev S (lprim S q xs w1) (fun v w' => pushed S false (p + length ct) (inr v) s w' sc)).
    { unfold step. cbn [pc wd scs sk]. rewrite HN, Hlen, take_rev, app_nil_r. reflexivity. }
    destruct (lprim S q xs w1) as [v w2 | w2]; cbn [of_ev] in Es.
    + eapply steps_trans; [exact IH|]. apply steps_one. rewrite Es. unfold pushed. do 2 f_equal.
      rewrite app_length; cbn; lia.
    + eapply fails_trans; [exact IH|]. apply fails_now; auto.
Qed.

Theorem expr_correct : forall e c, ok_expr e = true -> comp_expr [] e = Some c ->
  computes c (eval_expr S e).
Proof.
  intros e c Hok E. exact (f_sim _ _ (proj1 (proj2 sim_all) e c Hok E)).
Qed.

End Sim.
