(** * Heights of the operand stack in the code of expressions. *)
From Coq Require Import ZArith List Bool Lia.
From Verif Require Import Base FloatModel ExprModel VmModel ExprSpec ExprTree ExprShape ExprProofs StackModel StackFrag.
Import ListNotations.
Local Open Scope Z_scope.

(** Behaviour of values good enough to know the shapes of compiled code:
    constants only. *)
Definition const_sem (foldk : bop -> const -> const -> fold) : Sem := {|
  V := const; W := unit; L := unit;
  kval := fun k => k;
  undefv := KInt 0; nullv := KInt 0; funv := fun _ => KInt 0; typev := fun _ => KInt 0;
  vbool := fun v => match v with KBool b => Some b | _ => None end;
  vget := fun _ _ => KInt 0;
  lvar := fun _ => tt;
  binop := fun o a b w => match foldk o a b with FoldK k => EOk k w | _ => EErr w end;
  unop := fun _ v w => EOk v w;
  instof := fun v _ w => EOk v w;
  incdec := fun _ _ _ w => EOk (KInt 0) w;
  assign := fun _ _ v w => EOk v w;
  prim := fun _ _ w => EOk (KInt 0) w;
  lprim := fun _ _ w => EOk tt w;
  caseeq := fun _ _ w => EOk true w;
  itinit := fun _ _ w => EOk tt w;
  itload := fun _ v w => EOk v w;
  itcall := fun _ v w => EOk [] w;
  popsc := fun _ w => w
|}.

Section StackExpr.
Variable nprim nlprim : Z -> nat -> Z.
Hypothesis Hprim : forall p n, 1 - Z.of_nat n <= nprim p n.
Hypothesis Hlprim : forall p n, 1 - Z.of_nat n <= nlprim p n.
Variable foldk : bop -> const -> const -> fold.
Variable good : bop -> const -> const -> bool.

Notation Frag := (Frag nprim nlprim).
Notation FragT := (FragT nprim nlprim).
Notation tot := (tot nprim nlprim).
Notation S0 := (const_sem foldk).
Notation fact := (fact S0 foldk).
Notation lfact := (lfact S0 foldk).
Notation inf := (inf foldk good).
Notation ptree := (ptree foldk).
Notation bin_code := (bin_code foldk).

Lemma Hgood0 : forall o k1 k2 k, good o k1 k2 = true -> foldk o k1 k2 = FoldK k ->
  forall w, binop S0 o (kval S0 k1) (kval S0 k2) w = EOk (kval S0 k) w.
Proof. intros o k1 k2 k _ E w. cbn. rewrite E. reflexivity. Qed.
Lemma Hbool0 : forall b, vbool S0 (kval S0 (KBool b)) = Some b.
Proof. reflexivity. Qed.

(** Code that leaves one value more. *)
Definition up (c : code) : Prop := forall a, Frag c a (S a).
Definition keep (c : code) : Prop := forall a, Frag c (S a) (S a).
Definition ups (n : nat) (c : code) : Prop := forall a, Frag c a (a + n).

Lemma up_plain : forall i, falls i = true -> (forall a, tgt i a = None) -> resets i = false ->
  pops i = 0%nat -> pushes i = 1%nat -> up [i].
Proof.
  intros i Hf Ht Hr Hp Hq a. replace (S a) with (fall i a).
  - apply Frag_plain; auto. lia.
  - unfold fall. rewrite Hr, Hp, Hq. lia.
Qed.
Lemma keep_plain : forall i, falls i = true -> (forall a, tgt i a = None) -> resets i = false ->
  pops i = 1%nat -> pushes i = 1%nat -> keep [i].
Proof.
  intros i Hf Ht Hr Hp Hq a. replace (S a) with (fall i (S a)) at 2.
  - apply Frag_plain; auto. lia.
  - unfold fall. rewrite Hr, Hp, Hq. lia.
Qed.
Lemma up_keep : forall c1 c2, up c1 -> keep c2 -> up (c1 ++ c2).
Proof. intros c1 c2 H1 H2 a. eapply Frag_seq; [apply H1 | apply H2]. Qed.
Lemma keep_keep : forall c1 c2, keep c1 -> keep c2 -> keep (c1 ++ c2).
Proof. intros c1 c2 H1 H2 a. eapply Frag_seq; [apply H1 | apply H2]. Qed.
Lemma keep_nil : keep [].
Proof. intros a. apply FragT_nil. Qed.
Lemma ups_one : forall n c i, ups n c -> falls i = true -> (forall a, tgt i a = None) -> resets i = false ->
  pops i = n -> pushes i = 1%nat -> up (c ++ [i]).
Proof.
  intros n c i H Hf Ht Hr Hp Hq a. eapply Frag_seq; [apply H|].
  replace (S a) with (fall i (a + n)).
  - apply Frag_plain; auto. lia.
  - unfold fall. rewrite Hr, Hp, Hq. lia.
Qed.

(** ** Operators. *)
Lemma bin_pops_R : forall i r f, get_register i = Some (r, f) -> bin_pops (Z.lor P_ILOAD_R f) = 1%nat.
Proof. intros i r f H. destruct (reg_inv _ _ _ H) as (_ & _ & _ & _ & [-> | ->]); reflexivity. Qed.
Lemma bin_pops_RK : forall i r f k, get_register i = Some (r, f) ->
  bin_pops (Z.lor (Z.lor P_ILOAD_RK f) (k_property k)) = 0%nat.
Proof. intros i r f k H. destruct (reg_inv _ _ _ H) as (_ & _ & _ & _ & [-> | ->]); destruct k; reflexivity. Qed.
Lemma bin_pops_KR : forall i r f k, get_register i = Some (r, f) ->
  bin_pops (Z.lor (Z.lor P_ILOAD_KR f) (k_property k)) = 0%nat.
Proof. intros i r f k H. destruct (reg_inv _ _ _ H) as (_ & _ & _ & _ & [-> | ->]); destruct k; reflexivity. Qed.
Lemma bin_pops_RR : forall i r f, get_register i = Some (r, f) -> bin_pops (Z.lor P_ILOAD_RR f) = 0%nat.
Proof. intros i r f H. destruct (reg_inv _ _ _ H) as (_ & _ & _ & _ & [-> | ->]); reflexivity. Qed.

Lemma up_bin0 : forall o r v p, bin_pops p = 0%nat -> up [Bin o r v p].
Proof. intros. apply up_plain; auto. Qed.
Lemma up_bin1 : forall c o r v p, up c -> bin_pops p = 1%nat -> up (c ++ [Bin o r v p]).
Proof. intros. apply up_keep; auto. apply keep_plain; auto. Qed.
Lemma up_bin2 : forall cl cr o, up cl -> up cr -> up (cl ++ cr ++ [Bin o (-1) (Raw (-1)) 0]).
Proof.
  intros cl cr o Hl Hr a. eapply Frag_seq; [apply Hl|]. eapply Frag_seq; [apply Hr|].
  assert (E : fall (Bin o (-1) (Raw (-1)) 0) (S (S a)) = S a) by (unfold fall; cbn; lia).
  rewrite <- E at 2. apply Frag_plain; try reflexivity; auto. cbn. lia.
Qed.
Lemma up_loadk : forall k, up [LoadK k].
Proof. intros. apply up_plain; auto. Qed.

Lemma bin_up : forall o cl cr c, o <> O_INST -> up cl -> up cr ->
  cl <> [] -> tidy cl -> cr <> [] -> (tidy cr \/ ends_jk cr) ->
  bin_code o (cl ++ cr) = Some c -> up c.
Proof.
  intros o cl cr c Ho Cl Cr Nl Tl Nr Tr E.
  assert (Plain : c = cl ++ cr ++ [Bin o (-1) (Raw (-1)) 0] -> up c) by (intros ->; apply up_bin2; auto).
  unfold ExprShape.bin_code in E.
  destruct (snoc_case _ cr) as [-> | (cr' & y & ->)]; [congruence|].
  destruct (snoc_case _ cr') as [-> | (cr2 & x & ->)].
  - cbn [app] in *. destruct (snoc_case _ cl) as [-> | (cl' & x & ->)]; [congruence|].
    assert (Ea : (cl' ++ [x]) ++ [y] = cl' ++ [x; y]) by (rewrite <- app_assoc; reflexivity).
    rewrite Ea, optimize_pair in E by auto. unfold opt_pair in E.
    destruct (load x) eqn:Lx.
    + assert (El : cl' = []).
      { destruct Tl as [(i & Ei) | (c' & i & Ei & Hi)].
        - destruct cl' as [|? [|? ?]]; [auto | discriminate | discriminate].
        - apply app_inj_tail in Ei. destruct Ei; subst. congruence. }
      subst cl'. cbn [app] in *.
      destruct (is_const x) as [k1|] eqn:Kx.
      * rewrite (const_not_reg _ _ Kx) in E.
        destruct (is_const y) as [k2|] eqn:Ky.
        -- destruct (foldk o k1 k2) as [| |k] eqn:Ef; try discriminate. inversion E; subst. apply up_loadk.
        -- destruct (get_register y) as [(r2, f2)|] eqn:Ry.
           ++ inversion E; subst. apply up_bin0. eapply bin_pops_KR; eauto.
           ++ apply Plain. inversion E; subst. reflexivity.
      * unfold load, is_k in Lx. rewrite Kx in Lx. cbn [orb] in Lx.
        destruct (get_register x) as [(r1, f1)|] eqn:Rx; [|discriminate].
        destruct (get_register y) as [(r2, f2)|] eqn:Ry.
        -- assert (E' : c = [Bin o r1 (Raw (Z.lor (Z.shiftl (Z.land r2 255) 16) f2)) (Z.lor P_ILOAD_RR f1)])
             by (destruct (is_const y); inversion E; reflexivity).
           rewrite E'. apply up_bin0. eapply bin_pops_RR; eauto.
        -- destruct (is_const y) as [k2|] eqn:Ky.
           ++ inversion E; subst. apply up_bin0. eapply bin_pops_RK; eauto.
           ++ apply Plain. inversion E; subst. reflexivity.
    + destruct (load_false _ Lx) as (Kx & Rx). rewrite Kx, Rx in E.
      destruct (get_register y) as [(r2, f2)|] eqn:Ry.
      * assert (E' : c = (cl' ++ [x]) ++ [Bin o r2 (Raw (-1)) (Z.lor P_ILOAD_R f2)])
          by (destruct (is_const y); inversion E; reflexivity).
        rewrite E'. apply up_bin1; auto. eapply bin_pops_R; eauto.
      * apply Plain. destruct (is_const y); inversion E; subst; rewrite <- !app_assoc; reflexivity.
  - assert (Ea : cl ++ (cr2 ++ [x]) ++ [y] = (cl ++ cr2) ++ [x; y])
      by (rewrite <- !app_assoc; reflexivity).
    rewrite Ea, optimize_pair in E by auto. unfold opt_pair in E.
    apply Plain.
    assert (No : match is_const x, is_const y with
       | Some k1, Some k2 => False
       | _, _ => get_register y = None /\ (is_const y = None \/ get_register x = None)
       end).
    { destruct Tr as [[(i & Ei) | (c' & i & Ei & Hi)] | (c' & m & off & k & Ei)].
      - exfalso. apply (f_equal (@length _)) in Ei. rewrite !app_length in Ei. cbn in Ei. lia.
      - apply app_inj_tail in Ei. destruct Ei; subst i c'. destruct (load_false _ Hi) as (-> & ->).
        destruct (is_const x); auto.
      - change (c' ++ [Jmp m off; LoadK k]) with (c' ++ [Jmp m off] ++ [LoadK k]) in Ei.
        rewrite app_assoc in Ei. apply app_inj_tail in Ei. destruct Ei as (Ei & ->).
        apply app_inj_tail in Ei. destruct Ei as (_ & ->). cbn. auto. }
    assert (R : c = ((cl ++ cr2) ++ [x; y]) ++ [Bin o (-1) (Raw (-1)) 0]).
    { destruct (is_const x) as [k1|] eqn:Kx, (is_const y) as [k2|] eqn:Ky; [contradiction| | |];
        destruct No as (N1 & N2); rewrite N1 in E.
      - rewrite (const_not_reg _ _ Kx) in E. inversion E; reflexivity.
      - destruct N2 as [N2 | N2]; [discriminate|]. rewrite N2 in E. inversion E; reflexivity.
      - destruct (get_register x) as [(r1, f1)|]; inversion E; reflexivity. }
    rewrite R. rewrite <- !app_assoc. reflexivity.
Qed.

Lemma arith_up : forall T c,
  all_ops nologic T -> ok_tree foldk good (tmap inf T) = true -> leaves lfact T ->
  leaves (fun x => up (snd x)) T -> ptree (tmap snd T) = Some c -> up c.
Proof.
  induction T as [x | o l IHl r IHr]; intros c Ha Hok Hl Hu E.
  - cbn in E. inversion E; subst. exact Hu.
  - destruct Ha as (Ho & Hal & Har), Hl as (Hll & Hlr), Hu as (Hul & Hur).
    assert (Okl := okl_leaves _ _ _ Hll). assert (Okr := okl_leaves _ _ _ Hlr).
    cbn [ExprShape.ptree tmap] in E.
    destruct (ptree (tmap snd l)) as [cl|] eqn:El; [|discriminate].
    destruct (ptree (tmap snd r)) as [cr|] eqn:Er; [|discriminate].
    assert (Nl := proj1 (okl_ptree _ _ _ Okl El)). assert (Nr := proj1 (okl_ptree _ _ _ Okr Er)).
    cbn [tmap ok_tree] in Hok. rewrite !andb_true_iff in Hok. destruct Hok as ((Hokl & Hokr) & Hc).
    red in Ho. rewrite Ho in Hc.
    specialize (IHl _ Hal Hokl Hll Hul eq_refl).
    destruct (arith_tree S0 foldk good Hgood0 l cl Hal Hokl Hll El) as (_ & Tl & _).
    destruct (bop_inst_dec o) as [-> | Hi].
    + destruct r as [y | ? ? ?]; [|discriminate]. cbn in Hc, Hlr, Er. inversion Er; subst cr; clear Er.
      destruct (type_leaf (fst y)) as [t|] eqn:Ety; [|discriminate].
      assert (Ey := f_type _ _ _ _ Hlr _ Ety). rewrite Ey in E.
      destruct (snoc_case _ cl) as [-> | (cl' & i & ->)]; [congruence|].
      unfold ExprShape.bin_code in E. rewrite <- app_assoc in E. cbn [app] in E.
      rewrite optimize_inst in E. inversion E; subst; clear E.
      apply up_keep; auto. apply keep_plain; auto.
    + specialize (IHr _ Har Hokr Hlr Hur eq_refl).
      destruct (arith_tree S0 foldk good Hgood0 r cr Har Hokr Hlr Er) as (_ & Tr & _).
      assert (Hc' : negb (leaf_jump (tmap inf l)) && negb (leaf_tern (tmap inf r)) = true).
      { destruct o; try congruence; apply andb_true_iff in Hc; apply Hc. }
      clear Hc. rewrite !andb_true_iff, !negb_true_iff in Hc'. destruct Hc' as (Jl & Jr).
      assert (Eb : bin_code o (cl ++ cr) = Some c) by (destruct o; try discriminate Ho; exact E).
      apply (bin_up o cl cr); auto.
      * destruct l as [x | ? ? ?]; [|apply Tl]. cbn in Jl, El, Hll. inversion El; subst.
        apply (f_tidy _ _ _ _ Hll); auto.
      * destruct r as [x | ? ? ?]; [|left; apply Tr]. cbn in Jr, Er, Hlr. inversion Er; subst.
        destruct (jumpy (fst x)) eqn:Ej.
        -- right. apply (f_jk _ _ _ _ Hlr); auto.
        -- left. apply (f_tidy _ _ _ _ Hlr); auto.
Qed.

(** ** Logical operators. *)
Definition lm (a : nat) (i : instr) : option nat :=
  match i with Jnt NextOr _ => Some a | Jt LogicOk _ => Some a | _ => None end.
Definition upm (c : code) : Prop := forall a, FragT (lm a) none none c a (S a).

Lemma up_upm : forall c, up c -> upm c.
Proof. intros c H a. apply Frag_any. apply H. Qed.

Lemma FragT_seq0 : forall M T c1 c2 a b d,
  FragT M T none c1 a b -> FragT M (fun z h => T (z + Z.of_nat (length c1)) h) none c2 b d ->
  FragT M T none (c1 ++ c2) a d.
Proof.
  intros M T c1 c2 a b d H1 H2. eapply FragT_weaken; [| | |apply (FragT_seq _ _ M T none none); eassumption]; auto.
  intros z h [].
Qed.

Lemma logic_upm : forall T c,
  by_priority T -> ok_tree foldk good (tmap inf T) = true -> leaves lfact T ->
  leaves (fun x => up (snd x)) T -> ptree (tmap snd T) = Some c -> upm c.
Proof.
  induction T as [x | o l IHl r IHr]; intros c Hp Hok Hl Hu E.
  - cbn in E. inversion E; subst. apply up_upm. exact Hu.
  - destruct (is_logic o) eqn:Ho.
    + destruct Hl as (Hll & Hlr). destruct Hu as (Hul & Hur).
      cbn [tmap ok_tree] in Hok. rewrite !andb_true_iff in Hok. destruct Hok as ((Hokl & Hokr) & _).
      cbn [ExprShape.ptree tmap] in E.
      destruct (ptree (tmap snd l)) as [cl|] eqn:El; [|discriminate].
      destruct (ptree (tmap snd r)) as [cr|] eqn:Er; [|discriminate].
      assert (Pl : by_priority l) by apply Hp. assert (Pr : by_priority r) by apply Hp.
      specialize (IHl _ Pl Hokl Hll Hul eq_refl). specialize (IHr _ Pr Hokr Hlr Hur eq_refl).
      destruct o; try discriminate Ho; inversion E; subst; clear E; intros a;
        (eapply FragT_seq0; [apply IHl|]);
        (match goal with |- FragT _ _ _ (?x :: cr) _ _ => change (x :: cr) with ([x] ++ cr) end);
        (eapply FragT_seq0; [|apply IHr]);
        apply FragT_one; auto; cbn; try lia; try congruence; unfold fall; cbn; f_equal; lia.
    + apply up_upm. apply (arith_up (Node o l r)); auto.
      destruct Hp as (H1 & H2 & _). split; [exact Ho|].
      split; [eapply nologic_subl | eapply nologic_sub]; eauto.
Qed.

(** Patching. *)
Definition pinstr (t f i : Z) (rest : code) (x : instr) : instr :=
  match x with
  | Jnt NextOr _ => match next_or rest with Some d => Jnt NoMark (d + 2) | None => Jnt NoMark (f - i) end
  | Jt LogicOk _ => Jt NoMark (t - i)
  | _ => x
  end.
Lemma patch_cons : forall t f i x c, patch t f i (x :: c) = pinstr t f i c x :: patch t f (i + 1) c.
Proof. intros. destruct x; try reflexivity; destruct m; reflexivity. Qed.
Lemma patch_nth : forall c t f i p,
  nth_error (patch t f i c) p =
  option_map (pinstr t f (i + Z.of_nat p) (skipn (S p) c)) (nth_error c p).
Proof.
  induction c as [|x c IH]; intros t f i p.
  - destruct p; reflexivity.
  - rewrite patch_cons. destruct p as [|p].
    + cbn. rewrite Z.add_0_r. reflexivity.
    + cbn [nth_error]. rewrite IH. replace (i + Z.of_nat (S p)) with (i + 1 + Z.of_nat p) by lia. reflexivity.
Qed.
Lemma next_or_nth : forall c d, next_or c = Some d ->
  exists n off, d = Z.of_nat n /\ nth_error c n = Some (Jt LogicOk off).
Proof.
  induction c as [|x c IH]; intros d E; [discriminate|].
  assert (R : match next_or c with Some d => Some (d + 1) | None => None end = Some d ->
     exists n off, d = Z.of_nat n /\ nth_error (x :: c) n = Some (Jt LogicOk off)).
  { destruct (next_or c) as [d'|] eqn:Ed; [|discriminate]. intros H; inversion H; subst.
    destruct (IH _ eq_refl) as (n & off & -> & Hn). exists (S n), off. split; [lia | exact Hn]. }
  destruct x; try (exact (R E)). destruct m; try (exact (R E)).
  cbn in E. inversion E; subst. exists 0%nat, off. split; reflexivity.
Qed.
Lemma nth_skipn_add : forall A (l : list A) n m, nth_error (skipn n l) m = nth_error l (n + m).
Proof. intros A l n. revert l. induction n; intros [|x l] m; cbn; auto. destruct m; reflexivity. Qed.
Lemma any_mark_nth : forall m c p x, nth_error c p = Some x -> any_mark m [x] = true -> any_mark m c = true.
Proof.
  intros m c p x E H. unfold any_mark in *. apply existsb_exists. exists x.
  split; [eapply nth_error_In; eauto|]. cbn in H. rewrite orb_false_r in H. exact H.
Qed.
Lemma patch_tot : forall c t f i s p, tot s (firstn p (patch t f i c)) = tot s (firstn p c).
Proof.
  induction c as [|x c IH]; intros t f i s p; [destruct p; reflexivity|].
  rewrite patch_cons. destruct p as [|p]; [reflexivity|]. cbn [firstn StackFrag.tot].
  rewrite IH. f_equal.
  destruct x; try reflexivity; destruct m; try reflexivity; cbn. destruct (next_or c); reflexivity.
Qed.

Definition labels (c : code) (t f i : Z) (x : nat) (z : Z) (h : nat) : Prop :=
  h = x /\ ((any_mark LogicOk c = true /\ z = t - i) \/ (any_mark NextOr c = true /\ z = f - i)).
Lemma patch_frag : forall c t f i x K a b, FragT (lm x) none K c a b ->
  FragT nom (labels c t f i x) K (patch t f i c) a b.
Proof.
  intros c t f i x K a b (H & H0 & H1 & H2 & H3 & H4).
  exists H. rewrite patch_len. split; [exact H0|]. split; [exact H1|]. split; [exact H2|]. split.
  2:{ intros p Hp. rewrite patch_tot. apply H4. exact Hp. }
  intros p j E. rewrite patch_nth in E. destruct (nth_error c p) as [y|] eqn:Ey; [|discriminate].
  destruct (H3 p y Ey) as (A & B).
  assert (Ej : j = pinstr t f (i + Z.of_nat p) (skipn (S p) c) y) by (cbn [option_map] in E; congruence).
  clear E. subst j.
  assert (Same : lm x y = None -> pinstr t f (i + Z.of_nat p) (skipn (S p) c) y = y ->
    (falls (pinstr t f (i + Z.of_nat p) (skipn (S p) c) y) = true ->
       H (S p) = fall (pinstr t f (i + Z.of_nat p) (skipn (S p) c) y) (H p)) /\
    jump_ok nom (labels c t f i x) H (length c) p (pinstr t f (i + Z.of_nat p) (skipn (S p) c) y)).
  { intros Hn ->. split; [exact A|]. unfold jump_ok in *.
    destruct (tgt y (H p)) as [((m, off), h)|]; [|exact I].
    rewrite Hn in B. destruct m; try discriminate B. destruct B as [B | []]. left. exact B. }
  destruct y; try (apply Same; reflexivity); destruct m; try (apply Same; reflexivity); clear Same.
  - (* && *) unfold jump_ok in B. cbn [tgt lm] in B. assert (Bx : x = (H p - 1)%nat) by congruence. cbn [pinstr].
    pose proof (any_mark_nth NextOr _ _ _ Ey eq_refl) as Hm.
    destruct (next_or (skipn (S p) c)) as [d|] eqn:Ed.
    + split; [exact A|]. unfold jump_ok. cbn [tgt]. left.
      destruct (next_or_nth _ _ Ed) as (n & off' & -> & Hn). rewrite nth_skipn_add in Hn.
      pose proof (nth_len _ _ _ Hn). split; [lia|].
      replace (Z.to_nat (Z.of_nat p + (Z.of_nat n + 2))) with (S (S p + n)) by lia.
      destruct (H3 _ _ Hn) as (A' & B'). rewrite (A' eq_refl).
      unfold jump_ok in B'. cbn [tgt lm] in B'. assert (Bx' : x = (H (S p + n)%nat - 1)%nat) by congruence. unfold fall. cbn [resets pops pushes]. lia.
    + split; [exact A|]. unfold jump_ok. cbn [tgt]. right. split; [exact (eq_sym Bx)|]. right. split; [exact Hm | lia].
  - (* || *) unfold jump_ok in B. cbn [tgt lm] in B. assert (Bx : x = (H p - 1)%nat) by congruence. cbn [pinstr].
    pose proof (any_mark_nth LogicOk _ _ _ Ey eq_refl) as Hm.
    split; [exact A|]. unfold jump_ok. cbn [tgt]. right. split; [exact (eq_sym Bx)|]. left. split; [exact Hm | lia].
Qed.

Lemma FragT_T : forall M (T T' : Z -> nat -> Prop) K c a b, (forall z h, T z h -> T' z h) ->
  FragT M T K c a b -> FragT M T' K c a b.
Proof. intros. eapply FragT_weaken; [| | |eassumption]; auto. Qed.
Lemma FragT_ends : forall M (T T' : Z -> nat -> Prop) K c a b, FragT M T K c a b ->
  (forall z h, T z h -> K z h \/ (z = 0 /\ h = a) \/ (z = Z.of_nat (length c) /\ h = b) \/ T' z h) ->
  FragT M T' K c a b.
Proof. intros. eapply FragT_close; eauto. Qed.

Lemma logic_up : forall c, upm c -> up (logic_code c).
Proof.
  intros c H a. unfold logic_code, logic_end.
  destruct (any_mark LogicOk c || any_mark NextOr c) eqn:Hm.
  2:{ assert (Hn : nomark c) by (apply any_mark_false_nomark; auto).
      rewrite <- (patch_nomark c 0 0 0 Hn). eapply FragT_weaken; [| | |apply patch_frag; apply H]; auto.
      intros z h (_ & [(X & _) | (X & _)]); apply orb_false_iff in Hm; destruct Hm; congruence. }
  cbn [firstn skipn app].
  set (n := Z.of_nat (length c)).
  assert (J : forall off, FragT (lm a) (fun z h => z = off /\ h = S a) none [Jmp NoMark off] (S a) a).
  { intros off. apply FragT_one; auto; try discriminate; cbn; auto; lia. }
  assert (Kt : forall T, FragT (lm a) T none [LoadK (KBool true)] a (S a)) by (intros; apply Frag_any; apply up_loadk).
  assert (Kf : forall T, FragT (lm a) T none [LoadK (KBool false)] a (S a)) by (intros; apply Frag_any; apply up_loadk).
  destruct (any_mark LogicOk c) eqn:Mo, (any_mark NextOr c) eqn:Ma; cbn [andb] in *; try discriminate Hm.
  - (* both *)
    set (T := fun (z : Z) (h : nat) => z = n + 4 /\ h = S a).
    assert (F : FragT (lm a) T (fun z h => h = a /\ (z = n + 1 \/ z = n + 3))
       (c ++ [Jmp NoMark 4] ++ [LoadK (KBool true)] ++ [Jmp NoMark 2] ++ [LoadK (KBool false)]) a (S a)).
    { eapply FragT_weaken; [intros ? ? X; exact X | intros ? ? X; exact X | |
        eapply FragT_seq; [eapply FragT_T; [|apply H]; intros ? ? [] |];
        eapply FragT_seq; [eapply FragT_T; [|apply (J 4)]; intros z h (-> & ->); split; [unfold n; cbn [length]; lia | reflexivity] |];
        eapply FragT_seq; [apply Kt |];
        eapply FragT_seq; [eapply FragT_T; [|apply (J 2)]; intros z h (-> & ->); split; [unfold n; cbn [length]; lia | reflexivity] |];
        apply Kf ].
      intros z h (-> & [-> | ->]); unfold seam, n; cbn [length]; intuition lia. }
    apply (FragT_ends _ _ none) in F.
    2:{ intros z h (-> & ->). right; right; left. split; [rewrite !app_length; cbn; unfold n; lia | reflexivity]. }
    apply (patch_frag _ (n + 1) (n + 3) (Z.of_nat 0)) in F.
    eapply FragT_weaken; [intros ? ? X; exact X | intros ? ? X; exact X | |eapply FragT_ends; [exact F|]].
    { intros ? ? []. }
    intros z h (-> & [(_ & ->) | (_ & ->)]); left; split; auto; cbn; lia.
  - (* || *)
    set (T := fun (z : Z) (h : nat) => z = n + 2 /\ h = S a).
    assert (F : FragT (lm a) T (fun z h => h = a /\ z = n + 1)
       (c ++ [Jmp NoMark 2] ++ [LoadK (KBool true)]) a (S a)).
    { eapply FragT_weaken; [intros ? ? X; exact X | intros ? ? X; exact X | |
        eapply FragT_seq; [eapply FragT_T; [|apply H]; intros ? ? [] |];
        eapply FragT_seq; [eapply FragT_T; [|apply (J 2)]; intros z h (-> & ->); split; [unfold n; cbn [length]; lia | reflexivity] |];
        apply Kt ].
      intros z h (-> & ->); unfold seam, n; cbn [length]; intuition lia. }
    apply (FragT_ends _ _ none) in F.
    2:{ intros z h (-> & ->). right; right; left. split; [rewrite !app_length; cbn; unfold n; lia | reflexivity]. }
    apply (patch_frag _ (n + 1) n (Z.of_nat 0)) in F.
    eapply FragT_weaken; [intros ? ? X; exact X | intros ? ? X; exact X | |eapply FragT_ends; [exact F|]].
    { intros ? ? []. }
    intros z h (-> & [(_ & ->) | (X & ->)]); [left; split; auto; cbn; lia|].
    rewrite !any_mark_app, Ma in X. discriminate X.
  - (* && *)
    set (T := fun (z : Z) (h : nat) => z = n + 2 /\ h = S a).
    assert (F : FragT (lm a) T (fun z h => h = a /\ z = n + 1)
       (c ++ [Jmp NoMark 2] ++ [LoadK (KBool false)]) a (S a)).
    { eapply FragT_weaken; [intros ? ? X; exact X | intros ? ? X; exact X | |
        eapply FragT_seq; [eapply FragT_T; [|apply H]; intros ? ? [] |];
        eapply FragT_seq; [eapply FragT_T; [|apply (J 2)]; intros z h (-> & ->); split; [unfold n; cbn [length]; lia | reflexivity] |];
        apply Kf ].
      intros z h (-> & ->); unfold seam, n; cbn [length]; intuition lia. }
    apply (FragT_ends _ _ none) in F.
    2:{ intros z h (-> & ->). right; right; left. split; [rewrite !app_length; cbn; unfold n; lia | reflexivity]. }
    apply (patch_frag _ n (n + 1) (Z.of_nat 0)) in F.
    eapply FragT_weaken; [intros ? ? X; exact X | intros ? ? X; exact X | |eapply FragT_ends; [exact F|]].
    { intros ? ? []. }
    intros z h (-> & [(X & ->) | (_ & ->)]); [|left; split; auto; cbn; lia].
    rewrite !any_mark_app, Mo in X. discriminate X.
Qed.

(** ** Conditional expressions. *)
Lemma tern_keep : forall c1 c2, up c1 -> up c2 ->
  keep ([Jnt NoMark (Z.of_nat (length c1) + 2)] ++ c1 ++ [Jmp NoMark (Z.of_nat (length c2) + 1)] ++ c2).
Proof.
  intros c1 c2 H1 H2 a.
  set (T := fun (z : Z) (h : nat) => z = Z.of_nat (length c1) + 2 /\ h = a \/
                                    z = Z.of_nat (length c1) + 2 + Z.of_nat (length c2) /\ h = S a).
  assert (F : FragT nom T (fun z h => z = Z.of_nat (length c1) + 2 /\ h = a)
    ([Jnt NoMark (Z.of_nat (length c1) + 2)] ++ c1 ++ [Jmp NoMark (Z.of_nat (length c2) + 1)] ++ c2) (S a) (S a)).
  { eapply FragT_weaken; [intros ? ? X; exact X | intros ? ? X; exact X | |
      eapply FragT_seq; [apply FragT_one with (b := a) |
      eapply FragT_seq; [apply Frag_any; apply H1 |
      eapply FragT_seq; [apply FragT_one with (b := a) | apply Frag_any; apply H2]]]].
    - intros z h (-> & ->). unfold seam. cbn [length]. intuition lia.
    - auto.
    - auto.
    - intros _. unfold fall. cbn. lia.
    - cbn. lia.
    - discriminate.
    - cbn. left. split; [reflexivity | lia].
    - auto.
    - auto.
    - discriminate.
    - cbn. lia.
    - intros _. left. split; [lia | reflexivity].
    - cbn [tgt]. right. split; [cbn [length]; lia | reflexivity]. }
  eapply FragT_weaken; [intros ? ? X; exact X | intros ? ? X; exact X | |eapply FragT_ends; [exact F|]].
  { intros ? ? []. }
  intros z h [(-> & ->) | (-> & ->)]; [left; auto | right; right; left].
  split; [|reflexivity]. rewrite !app_length. cbn [length]. lia.
Qed.

(** ** Every expression. *)
Notation comp_operand := (comp_operand foldk).
Notation comp_expr := (comp_expr foldk).
Notation comp_args := (comp_args foldk).
Notation comp_ops := (comp_ops foldk).
Notation comp_targets := (comp_targets foldk).
Notation comp_target := (comp_target foldk).
Notation ok_operand := (ok_operand foldk good).
Notation ok_expr := (ok_expr foldk good).
Notation ok_args := (ok_args foldk good).
Notation ok_ops := (ok_ops foldk good).
Notation ok_tern := (ok_tern foldk good).
Notation ok_targets := (ok_targets foldk good).
Notation ok_target := (ok_target foldk good).

Definition Ua (a : operand) := forall c, ok_operand a = true -> comp_operand a = Some c -> up c.
Definition Ue (e : expr) := forall c, ok_expr e = true -> comp_expr [] e = Some c -> up c.
Definition Ues (es : exprs) := forall c, ok_args es = true -> comp_args es = Some c -> ups (length_es es) c.
Definition Uo (os : ops) := forall cs, comp_ops os = Some cs ->
  exists xs : list (bop * lf),
    cs = map (fun p => (fst p, snd (snd p))) xs /\
    ok_ops os = map (fun p => (fst p, inf (snd p))) xs /\
    Forall (fun p => ok_operand (fst (snd p)) = true -> lfact (snd p) /\ up (snd (snd p))) xs.
Definition Ut (tn : tern) := forall c, ok_tern tn = true -> tcode foldk tn = Some c -> keep c.
Definition Uts (ts : targets) := forall c, ok_targets ts = true -> comp_targets ts = Some c -> keep c.
Definition Utg (t : target) := forall c, ok_target t = true -> comp_target t = Some c -> up c.

Lemma operand_fact : forall a c, ok_operand a = true -> comp_operand a = Some c -> fact a c.
Proof. exact (proj1 (sim_all S0 foldk good Hgood0 Hbool0)). Qed.

Lemma as_arg_up : forall c, up c -> up (as_arg c).
Proof.
  intros c H. destruct c as [|[] [|? ?]]; try exact H.
  all: destruct x; try exact H; apply up_plain; auto.
Qed.

Lemma up_all :
  (forall a, Ua a) /\ (forall e, Ue e) /\ (forall es, Ues es) /\ (forall os, Uo os) /\
  (forall tn, Ut tn) /\ (forall ts, Uts ts) /\ (forall t, Utg t).
Proof.
  apply syntax_ind.
  - intros k c _ E; inversion E; apply up_plain; auto.
  - intros c _ E; inversion E; apply up_plain; auto.
  - intros c _ E; inversion E; apply up_plain; auto.
  - intros f c _ E; inversion E; apply up_plain; auto.
  - intros f c _ E; inversion E; apply up_plain; auto.
  - intros x c _ E; inversion E; apply up_plain; auto.
  - intros p i t IH c Hok E. rewrite comp_incdec_eq in E. destruct (comp_target t) as [ct|] eqn:Et; inversion E; subst.
    apply up_keep; [apply (IH _ Hok Et) | apply keep_plain; auto].
  - intros p es IH c Hok E. rewrite comp_prim_eq in E. destruct (comp_args es) as [ct|] eqn:Et; inversion E; subst.
    eapply ups_one; [apply (IH _ Hok Et) | auto ..].
  - intros e IH c Hok E. exact (IH _ Hok E).
  - intros u a IH c Hok E. rewrite comp_un_eq in E. destruct (comp_operand a) as [ct|] eqn:Et; inversion E; subst.
    apply up_keep; [apply (IH _ Hok Et) | apply keep_plain; auto].
  - intros ts Hts hd Hhd tl Htl tn Htn c Hok E.
    destruct (comp_expr_inv _ _ _ _ _ _ E) as (cts & chd & ctl & t & ct & Ets & Eh & El & Ep & Et & Ec).
    change (ok_expr (Expr ts hd tl tn)) with
      (ok_targets ts && ok_tern tn &&
       ok_tree foldk good (tree_of (inf (hd, chd)) (ok_ops tl))) in Hok.
    rewrite !andb_true_iff in Hok. destruct Hok as ((Ok1 & Ok2) & Ok3).
    destruct (Htl _ El) as (xs & X1 & X3 & X5).
    set (T := tree_of (hd, chd) xs).
    assert (T1 : tree_of chd ctl = tmap snd T).
    { unfold T. rewrite X1. rewrite <- tree_of_tmap. reflexivity. }
    rewrite X3, tree_of_tmap in Ok3. fold T in Ok3.
    destruct (tree_of_spec (hd, chd) xs) as (Tp & Tf & Tr). fold T in Tp, Tf, Tr.
    assert (TL : leaves lfact T /\ leaves (fun x => up (snd x)) T).
    { pose proof (ok_tree_leaves _ _ _ Ok3) as Lk. apply leaves_tmap in Lk.
      apply leaves_tree_of in Lk. destruct Lk as (L1 & L2).
      split; apply leaves_tree_of; split.
      - exact (operand_fact _ _ L1 Eh).
      - rewrite Forall_forall in *. intros p Hp. apply X5; auto. apply (L2 p Hp).
      - exact (Hhd _ L1 Eh).
      - rewrite Forall_forall in *. intros p Hp. apply X5; auto. apply (L2 p Hp). }
    rewrite T1 in Ep. destruct TL as (TL1 & TL2).
    subst c. apply up_keep; [|apply keep_keep; [apply (Htn _ Ok2 Et) | apply (Hts _ Ok1 Ets)]].
    apply logic_up. exact (logic_upm T t Tp Ok3 TL1 TL2 Ep).
  - intros c _ E. inversion E; subst. intros a. cbn. rewrite Nat.add_0_r. apply FragT_nil.
  - intros e He es Hes c Hok E. rewrite comp_args_eq in E.
    destruct (comp_expr [] e) as [ce|] eqn:Ee; [|discriminate].
    destruct (comp_args es) as [ces|] eqn:Ees; [|discriminate]. inversion E; subst.
    change (ok_expr e && ok_args es = true) in Hok. apply andb_true_iff in Hok. destruct Hok as (O1 & O2).
    intros a. eapply Frag_seq; [apply as_arg_up; exact (He _ O1 Ee)|].
    cbn [length_es]. replace (a + S (length_es es))%nat with (S a + length_es es)%nat by lia.
    exact (Hes _ O2 Ees (S a)).
  - intros cs E; inversion E; subst. exists []. repeat split; constructor.
  - intros o a Ha os Hos cs E. rewrite comp_ops_eq in E.
    destruct (comp_operand a) as [ca|] eqn:Ea; [|discriminate].
    destruct (comp_ops os) as [cos|] eqn:Eo; [|discriminate]. inversion E; subst.
    destruct (Hos _ Eo) as (xs & X1 & X2 & X3).
    exists ((o, (a, ca)) :: xs). split; [cbn; rewrite <- X1; reflexivity|].
    split; [change (ok_ops (OCons o a os)) with ((o, inf (a, ca)) :: ok_ops os); rewrite X2; reflexivity|].
    constructor; [|exact X3]. cbn. intros Hok. split; [exact (operand_fact _ _ Hok Ea) | exact (Ha _ Hok Ea)].
  - intros c _ E. inversion E. apply keep_nil.
  - intros e1 H1 e2 H2 c Hok E. cbn [tcode] in E.
    destruct (comp_expr [] e1) as [c1|] eqn:E1; [|discriminate].
    destruct (comp_expr [] e2) as [c2|] eqn:E2; [|discriminate].
    change (ok_expr e1 && ok_expr e2 = true) in Hok. apply andb_true_iff in Hok. destruct Hok as (O1 & O2).
    assert (Ec : c = [Jnt NoMark (Z.of_nat (length c1) + 2)] ++ c1 ++ [Jmp NoMark (Z.of_nat (length c2) + 1)] ++ c2)
      by congruence.
    rewrite Ec. apply tern_keep; [exact (H1 _ O1 E1) | exact (H2 _ O2 E2)].
  - intros c _ E. inversion E. apply keep_nil.
  - intros t Ht a ts Hts c Hok E. rewrite comp_targets_eq in E.
    destruct (comp_target t) as [ct|] eqn:Et; [|discriminate].
    destruct (comp_targets ts) as [cts|] eqn:Ets; [|discriminate].
    change (ok_target t && ok_targets ts = true) in Hok. apply andb_true_iff in Hok. destruct Hok as (O1 & O2).
    assert (Ec : c = ct ++ [Asg a false] ++ cts) by congruence. rewrite Ec.
    intros h. eapply Frag_seq; [exact (Ht _ O1 Et (S h))|]. eapply Frag_seq; [|exact (Hts _ O2 Ets h)].
    assert (Ef : fall (Asg a false) (S (S h)) = S h) by (unfold fall; cbn; lia).
    rewrite <- Ef at 2. apply Frag_plain; try reflexivity; auto. cbn. lia.
  - intros x c _ E. inversion E. apply up_plain; auto.
  - intros p es IH c Hok E. rewrite comp_target_eq in E. destruct (comp_args es) as [ct|] eqn:Et; inversion E; subst.
    eapply ups_one; [apply (IH _ Hok Et) | auto ..].
Qed.

Theorem expr_up : forall e c, ok_expr e = true -> comp_expr [] e = Some c -> up c.
Proof. exact (proj1 (proj2 up_all)). Qed.
Theorem target_up : forall t c, ok_target t = true -> comp_target t = Some c -> up c.
Proof. exact (proj2 (proj2 (proj2 (proj2 (proj2 (proj2 up_all)))))). Qed.

End StackExpr.
