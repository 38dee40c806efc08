(** * Shape of compiled expressions: the code of an expression does not depend
      on the instructions already emitted. *)
From Coq Require Import ZArith List Bool Lia.
From Verif Require Import Base FloatModel ExprModel VmModel ExprSpec ExprTree.
Import ListNotations.
Local Open Scope Z_scope.

Scheme operand_mind := Induction for operand Sort Prop
  with expr_mind := Induction for expr Sort Prop
  with exprs_mind := Induction for exprs Sort Prop
  with ops_mind := Induction for ops Sort Prop
  with tern_mind := Induction for tern Sort Prop
  with targets_mind := Induction for targets Sort Prop
  with target_mind := Induction for target Sort Prop.
Combined Scheme syntax_ind from operand_mind, expr_mind, exprs_mind, ops_mind, tern_mind,
  targets_mind, target_mind.

Lemma snoc_case : forall A (l : list A), l = [] \/ exists l' x, l = l' ++ [x].
Proof.
  intros A l. destruct l as [|a l]; [auto|]. right.
  destruct (@exists_last _ (a :: l)) as (l' & x & E); [discriminate|]. eauto.
Qed.

Lemma snoc2_case : forall A (l : list A), (2 <= length l)%nat -> exists l' x y, l = l' ++ [x; y].
Proof.
  intros A l H. destruct (snoc_case _ l) as [-> | (l1 & y & ->)]; [cbn in H; lia|].
  destruct (snoc_case _ l1) as [-> | (l2 & x & ->)]; [cbn in H; lia|].
  exists l2, x, y. rewrite <- app_assoc. reflexivity.
Qed.

Lemma rev_snoc2 : forall A (l : list A) x y, rev (l ++ [x; y]) = y :: x :: rev l.
Proof. intros. rewrite rev_app_distr. reflexivity. Qed.

(** ** The two last instructions. *)
Definition is_k (i : instr) : bool := match is_const i with Some _ => true | None => false end.
Definition ntc (c : code) : Prop := two_last_const c = false.

Lemma tlc_snoc2 : forall c x y, two_last_const (c ++ [x; y]) = is_k x && is_k y.
Proof.
  intros. unfold two_last_const, is_k. rewrite rev_snoc2.
  destruct (is_const x), (is_const y); reflexivity.
Qed.
Lemma tlc_single : forall x, two_last_const [x] = false.
Proof. reflexivity. Qed.
Lemma tlc_app : forall a b, (2 <= length b)%nat -> two_last_const (a ++ b) = two_last_const b.
Proof.
  intros a b H. destruct (snoc2_case _ _ H) as (l & x & y & ->).
  rewrite app_assoc, !tlc_snoc2. reflexivity.
Qed.
Lemma tlc_nonk : forall a y, is_k y = false -> two_last_const (a ++ [y]) = false.
Proof.
  intros a y H. destruct (snoc_case _ a) as [-> | (a' & x & ->)]; [reflexivity|].
  rewrite <- app_assoc. cbn [app]. rewrite tlc_snoc2, H. apply andb_false_r.
Qed.
Lemma tlc_nonk2 : forall a x b, is_k x = false -> ntc b -> two_last_const (a ++ x :: b) = false.
Proof.
  intros a x b H Hb. destruct b as [|y [|z b]].
  - apply tlc_nonk; auto.
  - change (a ++ [x; y]) with (a ++ [x] ++ [y]). rewrite app_assoc, <- app_assoc. cbn [app].
    rewrite tlc_snoc2, H. reflexivity.
  - change (a ++ x :: y :: z :: b) with (a ++ [x] ++ (y :: z :: b)).
    rewrite app_assoc, tlc_app by (cbn; lia). exact Hb.
Qed.

(** Code after which new code may be put without the two being confused. *)
Definition accok (acc : code) : Prop := acc = [] \/ exists a i, acc = a ++ [i] /\ is_k i = false.

Lemma accok_snoc : forall a i, is_k i = false -> accok (a ++ [i]).
Proof. right; eauto. Qed.

Lemma accok_ntc : forall acc c, accok acc -> c <> [] -> ntc c -> two_last_const (acc ++ c) = false.
Proof.
  intros acc c [-> | (a & i & -> & Hi)] Hc Hn; [exact Hn|].
  rewrite <- app_assoc. cbn [app]. apply tlc_nonk2; auto.
Qed.

(** ** Marks. *)
Definition unmarked (i : instr) : Prop :=
  match i with Jnt NextOr _ => False | Jt LogicOk _ => False | _ => True end.
Definition nomark (c : code) : Prop := Forall unmarked c.

Lemma nomark_app : forall a b, nomark (a ++ b) <-> nomark a /\ nomark b.
Proof. intros; apply Forall_app. Qed.

Lemma next_or_nomark : forall c, nomark c -> next_or c = None.
Proof.
  induction c as [|i c IH]; intros H; [reflexivity|]. inversion H; subst.
  cbn. rewrite IH by auto. destruct i; try reflexivity. destruct m; try reflexivity. contradiction.
Qed.
Lemma any_mark_nomark : forall m c, nomark c -> any_mark m c = false.
Proof.
  induction c as [|i c IH]; intros H; [reflexivity|]. inversion H; subst.
  unfold any_mark in *. cbn. rewrite IH by auto.
  destruct i; try reflexivity; destruct m0; try reflexivity; try contradiction; destruct m; reflexivity.
Qed.
Lemma any_mark_app : forall m a b, any_mark m (a ++ b) = any_mark m a || any_mark m b.
Proof. intros. apply existsb_app. Qed.

Lemma patch_len : forall c t f i, length (patch t f i c) = length c.
Proof. induction c as [|x c IH]; intros; [reflexivity|]. destruct x; try (cbn; rewrite IH; reflexivity);
  destruct m; cbn; try rewrite IH; try reflexivity. Qed.
Lemma patch_nomark : forall c t f i, nomark c -> patch t f i c = c.
Proof.
  induction c as [|x c IH]; intros t f i H; [reflexivity|]. inversion H; subst.
  destruct x; try (cbn; rewrite IH by auto; reflexivity);
    destruct m; try contradiction; cbn; rewrite IH by auto; reflexivity.
Qed.
Lemma patch_unmarks : forall c t f i, nomark (patch t f i c).
Proof.
  induction c as [|x c IH]; intros t f i; [constructor|].
  destruct x; try (constructor; [exact I | apply IH]);
    destruct m; cbn; constructor; try exact I; try apply IH.
  destruct (next_or c); exact I.
Qed.
Lemma patch_shift : forall c t f i d, patch (t + d) (f + d) (i + d) c = patch t f i c.
Proof.
  induction c as [|x c IH]; intros t f i d; [reflexivity|].
  assert (E : forall t f i, patch (t + d) (f + d) (i + d + 1) c = patch t f (i + 1) c).
  { intros. rewrite <- (IH t0 f0 (i0 + 1) d). f_equal; lia. }
  destruct x; try (cbn; rewrite E; reflexivity); destruct m; cbn; rewrite E; try reflexivity.
  - destruct (next_or c); [reflexivity|]. do 2 f_equal; lia.
  - do 2 f_equal; lia.
Qed.

Lemma next_or_app : forall a b, next_or (a ++ b) =
  match next_or a with
  | Some d => Some d
  | None => match next_or b with Some d => Some (d + Z.of_nat (length a)) | None => None end
  end.
Proof.
  induction a as [|x a IH]; intros b.
  - cbn. destruct (next_or b); [f_equal; lia | reflexivity].
  - assert (E : forall r, match next_or (a ++ b) with Some d => Some (d + 1) | None => None end = r ->
        match (match next_or a with Some d => Some (d + 1) | None => None end) with
        | Some d => Some d
        | None => match next_or b with Some d => Some (d + Z.of_nat (S (length a))) | None => None end
        end = r).
    { intros r <-. rewrite IH. destruct (next_or a); [reflexivity|]. destruct (next_or b); [|reflexivity].
      f_equal; lia. }
    destruct x; try (symmetry; apply E; reflexivity); destruct m;
      try (symmetry; apply E; reflexivity). reflexivity.
Qed.

(** Patching a concatenation: the first part's failing conjunctions go to the
    instruction after the next JT of the second part. *)
Definition f_of (f : Z) (i : Z) (b : code) : Z :=
  match next_or b with Some d => i + d + 1 | None => f end.

Lemma patch_app : forall a b t f i,
  patch t f i (a ++ b) =
  patch t (f_of f (i + Z.of_nat (length a)) b) i a ++ patch t f (i + Z.of_nat (length a)) b.
Proof.
  induction a as [|x a IH]; intros b t f i.
  - cbn. f_equal. lia.
  - assert (E : patch t f (i + 1) (a ++ b) =
       patch t (f_of f (i + Z.of_nat (length (x :: a))) b) (i + 1) a
         ++ patch t f (i + Z.of_nat (length (x :: a))) b).
    { rewrite IH. cbn [length]. replace (i + 1 + Z.of_nat (length a)) with (i + Z.of_nat (S (length a))) by lia.
      reflexivity. }
    destruct x; try (cbn [app patch]; rewrite E; reflexivity); destruct m;
      try (cbn [app patch]; rewrite E; reflexivity).
    cbn [app patch]. rewrite E. cbn [app]. f_equal.
    rewrite next_or_app. unfold f_of.
    destruct (next_or a); [reflexivity|]. destruct (next_or b); [|reflexivity].
    cbn [length]. f_equal. lia.
Qed.

(** ** Leaves of trees. *)
Fixpoint leaves {A} (P : A -> Prop) (t : tree A) : Prop :=
  match t with Leaf a => P a | Node _ l r => leaves P l /\ leaves P r end.

Lemma leaves_toks : forall A (P : A -> Prop) t,
  leaves P t <-> P (first_leaf t) /\ Forall (fun p => P (snd p)) (rest_toks t).
Proof.
  induction t as [a | o l IHl r IHr]; cbn.
  - intuition.
  - rewrite Forall_app, Forall_cons_iff; cbn. intuition.
Qed.
Lemma leaves_tree_of : forall A (P : A -> Prop) hd tl,
  leaves P (tree_of hd tl) <-> P hd /\ Forall (fun p => P (snd p)) tl.
Proof.
  intros. rewrite leaves_toks. destruct (tree_of_spec hd tl) as (_ & -> & ->). tauto.
Qed.

(** ** Code without what comes before it. *)
Section Shape.
Variable foldk : bop -> const -> const -> fold.
Notation optimize := (optimize foldk).
Notation comp_operand := (comp_operand foldk).
Notation comp_expr := (comp_expr foldk).
Notation comp_args := (comp_args foldk).
Notation comp_ops := (comp_ops foldk).
Notation comp_tern := (comp_tern foldk).
Notation comp_targets := (comp_targets foldk).
Notation comp_target := (comp_target foldk).
Notation ctree := (ctree foldk).

(** The optimiser on the two last instructions, for other operators than
    [instanceof]. *)
Definition opt_pair (o : bop) (l : code) (x y : instr) : opt :=
  match is_const x, is_const y with
  | Some k1, Some k2 =>
      match foldk o k1 k2 with
      | FoldErr | FoldUB => OptErr
      | FoldK k => OptTo (l ++ [LoadK k])
      end
  | K1, K2 =>
      match get_register x, get_register y with
      | Some (r1, f1), Some (r2, f2) =>
          OptTo (l ++ [Bin o r1 (Raw (Z.lor (Z.shiftl (Z.land r2 255) 16) f2)) (Z.lor P_ILOAD_RR f1)])
      | Some (r1, f1), None =>
          match K2 with
          | Some k2 => OptTo (l ++ [Bin o r1 (Cst k2) (Z.lor (Z.lor P_ILOAD_RK f1) (k_property k2))])
          | None => OptNone
          end
      | None, Some (r2, f2) =>
          match K1 with
          | Some k1 => OptTo (l ++ [Bin o r2 (Cst k1) (Z.lor (Z.lor P_ILOAD_KR f2) (k_property k1))])
          | None => OptTo ((l ++ [x]) ++ [Bin o r2 (Raw (-1)) (Z.lor P_ILOAD_R f2)])
          end
      | None, None => OptNone
      end
  end.

Lemma optimize_pair : forall o l x y, o <> O_INST -> optimize o (l ++ [x; y]) = opt_pair o l x y.
Proof.
  intros o l x y Ho. unfold ExprModel.optimize. rewrite rev_snoc2. cbn [rev]. rewrite rev_involutive.
  destruct o; try reflexivity. congruence.
Qed.

Definition inst_arg (y : instr) : Z :=
  match y with
  | LoadType t => t
  | LoadK (KInt z) => z
  | LoadK (KBool b) => if b then 1 else 0
  | LoadFun f => f
  | _ => -1
  end.
Lemma optimize_inst : forall l x y, optimize O_INST (l ++ [x; y]) = OptTo ((l ++ [x]) ++ [Inst (inst_arg y)]).
Proof. intros. unfold ExprModel.optimize. rewrite rev_snoc2. cbn [rev]. rewrite rev_involutive. reflexivity. Qed.

Lemma bop_inst_dec : forall o, o = O_INST \/ o <> O_INST.
Proof. destruct o; (left; reflexivity) || (right; discriminate). Qed.

Lemma optimize_app : forall o a c, (2 <= length c)%nat ->
  optimize o (a ++ c) = match optimize o c with OptTo c' => OptTo (a ++ c') | r => r end.
Proof.
  intros o a c H. destruct (snoc2_case _ _ H) as (l & x & y & ->).
  rewrite app_assoc. destruct (bop_inst_dec o) as [-> | Ho].
  - rewrite !optimize_inst, <- !app_assoc. reflexivity.
  - rewrite !optimize_pair by auto. unfold opt_pair.
    destruct (is_const x) as [k1|], (is_const y) as [k2|];
    [destruct (foldk _ k1 k2); rewrite <- ?app_assoc; reflexivity | | |];
    destruct (get_register x) as [(r1, f1)|], (get_register y) as [(r2, f2)|];
    rewrite <- ?app_assoc; reflexivity.
Qed.

Definition bin_code (o : bop) (c : code) : option code :=
  match optimize o c with
  | OptErr => None
  | OptNone => Some (c ++ [Bin o (-1) (Raw (-1)) 0])
  | OptTo c' => Some c'
  end.

Fixpoint ptree (t : tree code) : option code :=
  match t with
  | Leaf c => Some c
  | Node o l r =>
      match ptree l, ptree r with
      | Some cl, Some cr =>
          match o with
          | O_LAND => Some (cl ++ [Jnt NextOr (-1)] ++ cr)
          | O_LOR => Some (cl ++ [Jt LogicOk (-1)] ++ cr)
          | _ => bin_code o (cl ++ cr)
          end
      | _, _ => None
      end
  end.

Definition okl (c : code) : Prop := c <> [] /\ ntc c.

Lemma bin_code_app : forall o a c, (2 <= length c)%nat ->
  bin_code o (a ++ c) = option_map (app a) (bin_code o c).
Proof.
  intros. unfold bin_code. rewrite optimize_app by auto.
  destruct (optimize o c); cbn; rewrite <- ?app_assoc; reflexivity.
Qed.

Lemma len_ne : forall (c : code), c <> [] -> (1 <= length c)%nat.
Proof. destruct c; cbn; [congruence | lia]. Qed.

Lemma okl_bin : forall o cl cr c, okl cl -> okl cr -> bin_code o (cl ++ cr) = Some c -> okl c.
Proof.
  intros o cl cr c (Nl & Tl) (Nr & Tr) E.
  assert (H2 : (2 <= length (cl ++ cr))%nat)
    by (rewrite app_length; apply len_ne in Nl, Nr; lia).
  unfold bin_code in E.
  destruct (optimize o (cl ++ cr)) as [| | c'] eqn:Eo; inversion E; subst; clear E.
  - split; [intros H; apply app_eq_nil in H; destruct H; discriminate|].
    apply tlc_nonk; reflexivity.
  - assert (K : (exists a i, c = a ++ [i] /\ is_k i = false) -> okl c).
    { intros (a & i & -> & Hi). split; [intros H; apply app_eq_nil in H; destruct H; discriminate|].
      apply tlc_nonk; auto. }
    destruct (snoc2_case _ _ H2) as (l & x & y & Ec). rewrite Ec in Eo.
    assert (Kf : is_k x = true -> is_k y = true -> forall k, okl (l ++ [LoadK k])).
    { intros Kx Ky k.
      (* cr has one instruction, cl ends with x *)
      destruct cr as [|z [|z' cr]]; [congruence| |].
      - assert (Ec2 : cl ++ [z] = (l ++ [x]) ++ [y]) by (rewrite <- app_assoc; exact Ec).
        apply app_inj_tail in Ec2. destruct Ec2 as (-> & ->).
        split; [intros H; apply app_eq_nil in H; destruct H; discriminate|].
        destruct (snoc_case _ l) as [-> | (l' & u & ->)]; [reflexivity|].
        red. rewrite <- app_assoc. cbn [app]. rewrite tlc_snoc2.
        red in Tl. rewrite <- app_assoc in Tl. cbn [app] in Tl. rewrite tlc_snoc2, Kx in Tl.
        rewrite andb_true_r in Tl. rewrite Tl. reflexivity.
      - exfalso. red in Tr. rewrite <- tlc_app with (a := cl) in Tr by (cbn; lia).
        rewrite Ec, tlc_snoc2, Kx, Ky in Tr. discriminate. }
    unfold is_k in Kf.
    destruct (bop_inst_dec o) as [-> | Ho].
    + rewrite optimize_inst in Eo. inversion Eo; subst. apply K; eexists _, _; split; reflexivity.
    + rewrite optimize_pair in Eo by auto. unfold opt_pair in Eo.
      destruct (is_const x) as [k1|], (is_const y) as [k2|];
      [destruct (foldk _ k1 k2); inversion Eo; subst; apply Kf; reflexivity | | |];
      destruct (get_register x) as [(r1, f1)|], (get_register y) as [(r2, f2)|];
      inversion Eo; subst; apply K; eexists _, _; split; reflexivity.
Qed.

Lemma okl_ptree : forall t c, leaves okl t -> ptree t = Some c -> okl c.
Proof.
  induction t as [d | o l IHl r IHr]; cbn; intros c Hl E.
  - inversion E; subst; auto.
  - destruct Hl as (Hl & Hr). destruct (ptree l) as [cl|]; [|discriminate].
    destruct (ptree r) as [cr|]; [|discriminate].
    assert (Ol := IHl _ Hl eq_refl). assert (Or := IHr _ Hr eq_refl).
    assert (J : forall i, is_k i = false -> okl (cl ++ i :: cr)).
    { intros i Hi. split; [intros H; apply app_eq_nil in H; destruct H; discriminate|].
      apply tlc_nonk2; auto. apply Or. }
    destruct o; try exact (okl_bin _ _ _ _ Ol Or E); inversion E; subst; apply J; reflexivity.
Qed.

Definition nologic (o : bop) : Prop := is_logic o = false.

Lemma bin_code_plain : forall o acc cl cr, cl <> [] -> cr <> [] ->
  match optimize o ((acc ++ cl) ++ cr) with
  | OptErr => None
  | OptNone => Some (((acc ++ cl) ++ cr) ++ [Bin o (-1) (Raw (-1)) 0])
  | OptTo acc3 => Some acc3
  end = option_map (app acc) (bin_code o (cl ++ cr)).
Proof.
  intros. rewrite <- bin_code_app.
  - rewrite app_assoc. reflexivity.
  - rewrite app_length. apply len_ne in H, H0. lia.
Qed.

Lemma ctree_nologic : forall t acc, all_ops nologic t -> leaves okl t ->
  ctree acc t = option_map (app acc) (ptree t).
Proof.
  induction t as [d | o l IHl r IHr]; intros acc Ha Hl; [reflexivity|].
  destruct Ha as (Ho & Hal & Har), Hl as (Hll & Hlr).
  cbn [ctree ptree]. rewrite IHl by auto.
  destruct (ptree l) as [cl|] eqn:El; [|reflexivity]. cbn [option_map].
  rewrite IHr by auto. destruct (ptree r) as [cr|] eqn:Er; cbn [option_map].
  - assert (Nl := proj1 (okl_ptree _ _ Hll El)). assert (Nr := proj1 (okl_ptree _ _ Hlr Er)).
    pose proof (fun o => bin_code_plain o acc cl cr Nl Nr) as Hb.
    destruct (two_last_const (acc ++ cl)); destruct o; try discriminate Ho; apply Hb.
  - destruct (two_last_const (acc ++ cl)); destruct o; try discriminate Ho; reflexivity.
Qed.

Lemma nologic_sub : forall A o (r : tree A), is_logic o = false ->
  all_ops (fun x => (binds o < binds x)%nat) r -> all_ops nologic r.
Proof.
  intros A o r Ho H. eapply all_ops_impl; [|exact H].
  intros x Hx. destruct o; try discriminate Ho; destruct x; try reflexivity; cbn in Hx; lia.
Qed.
Lemma nologic_subl : forall A o (r : tree A), is_logic o = false ->
  all_ops (fun x => (binds o <= binds x)%nat) r -> all_ops nologic r.
Proof.
  intros A o r Ho H. eapply all_ops_impl; [|exact H].
  intros x Hx. destruct o; try discriminate Ho; destruct x; try reflexivity; cbn in Hx; lia.
Qed.

Lemma ctree_ptree : forall t acc, by_priority t -> leaves okl t -> accok acc ->
  ctree acc t = option_map (app acc) (ptree t).
Proof.
  induction t as [d | o l IHl r IHr]; intros acc Hp Hl Hacc; [reflexivity|].
  destruct (is_logic o) eqn:Ho.
  - destruct Hp as (_ & _ & Pl & Pr), Hl as (Hll & Hlr).
    cbn [ctree ptree]. rewrite IHl by auto.
    destruct (ptree l) as [cl|] eqn:El; [|reflexivity]. cbn [option_map].
    destruct (okl_ptree _ _ Hll El) as (Nl & Tl).
    rewrite accok_ntc by auto.
    destruct o; try discriminate Ho;
      (rewrite IHr by (auto; apply accok_snoc; reflexivity);
       destruct (ptree r) as [cr|]; [|reflexivity];
       cbn [option_map]; rewrite <- !app_assoc; reflexivity).
  - apply ctree_nologic; [|exact Hl].
    destruct Hp as (H1 & H2 & _). split; [exact Ho|]. split.
    + eapply nologic_subl; eauto.
    + eapply nologic_sub; eauto.
Qed.

(** The epilogue without what comes before. *)
Definition logic_code (c : code) : code :=
  logic_end (any_mark LogicOk c) (any_mark NextOr c) 0 c.

Lemma logic_end_app : forall ao aa acc c,
  logic_end ao aa (length acc) (acc ++ c) = acc ++ logic_end ao aa 0 c.
Proof.
  intros. unfold logic_end. destruct (ao || aa); [|reflexivity].
  rewrite firstn_app, firstn_all, Nat.sub_diag, firstn_O, app_nil_r.
  rewrite skipn_app, skipn_all, Nat.sub_diag, skipn_O. cbn [app firstn skipn].
  f_equal. rewrite app_length.
  rewrite Nat2Z.inj_add. symmetry.
  rewrite <- patch_shift with (d := Z.of_nat (length acc)). f_equal.
  - destruct ao; lia.
  - destruct aa, ao; lia.
Qed.

Lemma logic_code_nomark : forall c, nomark c -> logic_code c = c.
Proof. intros. unfold logic_code. rewrite !any_mark_nomark by auto. reflexivity. Qed.

Definition tcode (tn : tern) : option code :=
  match tn with
  | TNone => Some []
  | TSome e1 e2 =>
      match comp_expr [] e1, comp_expr [] e2 with
      | Some c1, Some c2 =>
          Some ([Jnt NoMark (Z.of_nat (length c1) + 2)] ++ c1 ++
                [Jmp NoMark (Z.of_nat (length c2) + 1)] ++ c2)
      | _, _ => None
      end
  end.

Definition okc (c : code) : Prop := c <> [] /\ ntc c /\ nomark c.

Definition Pa (a : operand) := forall c, comp_operand a = Some c -> okc c.
Definition Pe (e : expr) :=
  (forall acc, accok acc -> comp_expr acc e = option_map (app acc) (comp_expr [] e)) /\
  (forall c, comp_expr [] e = Some c -> okc c).
Definition Pes (es : exprs) := forall c, comp_args es = Some c -> nomark c.
Definition Po (os : ops) := forall cs, comp_ops os = Some cs -> Forall (fun p => okc (snd p)) cs.
Definition Pt (tn : tern) :=
  (forall acc, comp_tern acc tn = option_map (app acc) (tcode tn)) /\
  (forall c, tcode tn = Some c -> nomark c /\ (c = [] \/ ((2 <= length c)%nat /\ ntc c))).
Definition Pts (ts : targets) := forall c, comp_targets ts = Some c ->
  nomark c /\ (c = [] \/ exists c' a, c = c' ++ [Asg a false]).
Definition Ptg (t : target) := forall c, comp_target t = Some c -> nomark c.

Lemma as_arg_nomark : forall c, nomark c -> nomark (as_arg c).
Proof.
  intros c H. destruct c as [|[] [|? ?]]; try exact H.
  all: destruct x; try exact H; repeat constructor.
Qed.

Lemma logic_code_len : forall c, (length c <= length (logic_code c))%nat.
Proof.
  intros. unfold logic_code, logic_end. destruct (_ || _); [|lia].
  cbn [firstn skipn app]. rewrite patch_len, app_length. lia.
Qed.

(** The last instructions of the epilogue. *)
Lemma logic_code_shape : forall c,
  (any_mark LogicOk c || any_mark NextOr c = false /\ logic_code c = c) \/
  (any_mark LogicOk c || any_mark NextOr c = true /\
   exists c' k, logic_code c = c' ++ [Jmp NoMark 2; LoadK k]).
Proof.
  intros. unfold logic_code, logic_end.
  destruct (any_mark LogicOk c), (any_mark NextOr c); cbn [orb andb firstn skipn app]; auto;
    right; split; auto.
  - rewrite patch_app. eexists _, (KBool false).
    rewrite (patch_nomark [_; _; _; _]) by (repeat constructor).
    change [Jmp NoMark 4; LoadK (KBool true); Jmp NoMark 2; LoadK (KBool false)]
      with ([Jmp NoMark 4; LoadK (KBool true)] ++ [Jmp NoMark 2; LoadK (KBool false)]).
    rewrite app_assoc. reflexivity.
  - rewrite patch_app. rewrite (patch_nomark [_; _]) by (repeat constructor). eauto.
  - rewrite patch_app. rewrite (patch_nomark [_; _]) by (repeat constructor). eauto.
Qed.

Lemma any_mark_false_nomark : forall c,
  any_mark LogicOk c || any_mark NextOr c = false -> nomark c.
Proof.
  induction c as [|i c IH]; intros H; [constructor|].
  unfold any_mark in *. cbn [existsb] in H.
  rewrite !orb_false_iff in H. destruct H as ((H1 & H2) & H3 & H4).
  constructor; [|apply IH; rewrite H2, H4; reflexivity].
  destruct i; try exact I; destruct m; try exact I; discriminate.
Qed.

Lemma logic_code_ok : forall c, okl c -> okc (logic_code c).
Proof.
  intros c (Hn & Ht). destruct (logic_code_shape c) as [(Hm & E) | (Hm & c' & k & E)]; rewrite E.
  - split; [auto|]. split; [auto|]. apply any_mark_false_nomark; auto.
  - rewrite <- E. split; [|split].
    + pose proof (logic_code_len c). destruct (logic_code c); [|discriminate].
      destruct c; [congruence | cbn in H; lia].
    + red. rewrite E, tlc_snoc2. reflexivity.
    + unfold logic_code, logic_end. rewrite Hm. cbn [firstn app]. apply patch_unmarks.
Qed.

(** Unfolding equations. *)
Lemma comp_expr_eq : forall acc ts hd tl tn,
  comp_expr acc (Expr ts hd tl tn) =
  match comp_targets ts with
  | None => None
  | Some cts =>
  match comp_operand hd with
  | None => None
  | Some chd =>
  match comp_ops tl with
  | None => None
  | Some ctl =>
  match ctoks foldk (S (length ctl)) acc chd ctl with
  | None => None
  | Some c1 =>
      let new := skipn (length acc) c1 in
      let c2 := logic_end (any_mark LogicOk new) (any_mark NextOr new) (length acc) c1 in
      match comp_tern c2 tn with
      | None => None
      | Some c3 => Some (c3 ++ cts)
      end
  end end end end.
Proof. reflexivity. Qed.
Lemma comp_tern_eq : forall acc e1 e2,
  comp_tern acc (TSome e1 e2) =
  match comp_expr (acc ++ [Jnt NoMark (-1)]) e1 with
  | None => None
  | Some c1 =>
      match comp_expr (c1 ++ [Jmp NoMark (-1)]) e2 with
      | None => None
      | Some c2 =>
          Some (firstn (length acc) c2
                ++ [Jnt NoMark (Z.of_nat (length c1) + 1 - Z.of_nat (length acc))]
                ++ firstn (length c1 - length acc - 1) (skipn (length acc + 1) c2)
                ++ [Jmp NoMark (Z.of_nat (length c2) - Z.of_nat (length c1))]
                ++ skipn (length c1 + 1) c2)
      end
  end.
Proof. reflexivity. Qed.
Lemma comp_args_eq : forall e es,
  comp_args (ECons e es) =
  match comp_expr [] e with
  | None => None
  | Some c => match comp_args es with None => None | Some cs => Some (as_arg c ++ cs) end
  end.
Proof. reflexivity. Qed.
Lemma comp_ops_eq : forall o a os,
  comp_ops (OCons o a os) =
  match comp_operand a with
  | None => None
  | Some c => match comp_ops os with None => None | Some cs => Some ((o, c) :: cs) end
  end.
Proof. reflexivity. Qed.
Lemma comp_targets_eq : forall t a ts,
  comp_targets (TgCons t a ts) =
  match comp_target t with
  | None => None
  | Some c => match comp_targets ts with None => None | Some cs => Some (c ++ [Asg a false] ++ cs) end
  end.
Proof. reflexivity. Qed.
Lemma comp_target_eq : forall p es,
  comp_target (TPrim p es) =
  match comp_args es with Some c => Some (c ++ [LPrim p (length_es es)]) | None => None end.
Proof. reflexivity. Qed.
Lemma comp_incdec_eq : forall p i t,
  comp_operand (AIncDec p i t) =
  match comp_target t with Some c => Some (c ++ [IncDec p i false]) | None => None end.
Proof. reflexivity. Qed.
Lemma comp_prim_eq : forall p es,
  comp_operand (APrim p es) =
  match comp_args es with Some c => Some (c ++ [Prim p (length_es es) false]) | None => None end.
Proof. reflexivity. Qed.
Lemma comp_paren_eq : forall e, comp_operand (AParen e) = comp_expr [] e.
Proof. reflexivity. Qed.
Lemma comp_un_eq : forall u a,
  comp_operand (AUn u a) = match comp_operand a with Some c => Some (c ++ [Un u]) | None => None end.
Proof. reflexivity. Qed.

(** Decomposition of a compiled expression. *)
Lemma comp_expr_parts : forall ts hd tl tn acc,
  Pa hd -> Po tl -> (forall acc, comp_tern acc tn = option_map (app acc) (tcode tn)) ->
  accok acc ->
  comp_expr acc (Expr ts hd tl tn) =
  match comp_targets ts, comp_operand hd, comp_ops tl with
  | Some cts, Some chd, Some ctl =>
      match ptree (tree_of chd ctl), tcode tn with
      | Some t, Some ct => Some (acc ++ logic_code t ++ ct ++ cts)
      | _, _ => None
      end
  | _, _, _ => None
  end.
Proof.
  intros ts hd tl tn acc Ha Ho Ht Hacc. rewrite comp_expr_eq.
  destruct (comp_targets ts) as [cts|]; [|reflexivity].
  destruct (comp_operand hd) as [chd|] eqn:Eh; [|reflexivity].
  destruct (comp_ops tl) as [ctl|] eqn:El; [|reflexivity].
  destruct (tree_of_spec chd ctl) as (Hp & _ & _).
  assert (Hl : leaves okl (tree_of chd ctl)).
  { apply leaves_tree_of. split.
    - destruct (Ha _ Eh) as (A1 & A2 & _); split; auto.
    - eapply Forall_impl; [|exact (Ho _ El)]. intros p (A1 & A2 & _); split; auto. }
  rewrite ctoks_tree_of, ctree_ptree by auto.
  destruct (ptree (tree_of chd ctl)) as [t|]; [|reflexivity]. cbn [option_map].
  rewrite skipn_app, skipn_all, Nat.sub_diag, skipn_O. cbn [app].
  rewrite logic_end_app, Ht. fold (logic_code t).
  destruct (tcode tn) as [ct|]; [|reflexivity]. cbn [option_map].
  rewrite <- !app_assoc. reflexivity.
Qed.

Lemma comp_tern_code : forall e1 e2, Pe e1 -> Pe e2 -> forall acc,
  comp_tern acc (TSome e1 e2) = option_map (app acc) (tcode (TSome e1 e2)).
Proof.
  intros e1 e2 (H1 & _) (H2 & _) acc. rewrite comp_tern_eq. cbn [tcode].
  rewrite H1 by (apply accok_snoc; reflexivity).
  destruct (comp_expr [] e1) as [c1|]; [|reflexivity]. cbn [option_map].
  rewrite H2 by (apply accok_snoc; reflexivity).
  destruct (comp_expr [] e2) as [c2|]; [|reflexivity]. cbn [option_map]. f_equal.
  rewrite <- !app_assoc.
  set (u := Jnt NoMark (-1)). set (v := Jmp NoMark (-1)).
  rewrite firstn_app, firstn_all, Nat.sub_diag, firstn_O, app_nil_r.
  assert (S1 : skipn (length acc + 1) (acc ++ [u] ++ c1 ++ [v] ++ c2) = c1 ++ [v] ++ c2).
  { rewrite skipn_app, skipn_all2 by lia.
    replace (length acc + 1 - length acc)%nat with 1%nat by lia. reflexivity. }
  assert (S2 : skipn (length (acc ++ [u] ++ c1) + 1) (acc ++ [u] ++ c1 ++ [v] ++ c2) = c2).
  { replace (acc ++ [u] ++ c1 ++ [v] ++ c2) with ((acc ++ [u] ++ c1) ++ [v] ++ c2)
      by (rewrite <- !app_assoc; reflexivity).
    rewrite skipn_app, skipn_all2 by lia.
    replace (length (acc ++ [u] ++ c1) + 1 - length (acc ++ [u] ++ c1))%nat with 1%nat by lia.
    reflexivity. }
  rewrite S1, S2.
  replace (length (acc ++ [u] ++ c1) - length acc - 1)%nat with (length c1)
    by (rewrite !app_length; cbn [length]; lia).
  rewrite firstn_app, firstn_all, Nat.sub_diag, firstn_O, app_nil_r.
  rewrite !app_length. cbn [length].
  f_equal. cbn [app]. f_equal; [f_equal; lia|]. f_equal. f_equal. f_equal; lia.
Qed.

Lemma okc_app_tail : forall a b, okc a -> nomark b -> (b = [] \/ ((2 <= length b)%nat /\ ntc b)) ->
  okc (a ++ b).
Proof.
  intros a b (A1 & A2 & A3) Hb [-> | (L & T)].
  - rewrite app_nil_r. repeat split; auto.
  - split; [intros H; apply app_eq_nil in H; destruct H; congruence|]. split.
    + red. rewrite tlc_app; auto.
    + apply nomark_app; auto.
Qed.
Lemma okc_app_end : forall a b i, okc a -> nomark (b ++ [i]) -> is_k i = false -> okc (a ++ b ++ [i]).
Proof.
  intros a b i (A1 & A2 & A3) Hb Hi.
  split; [intros H; apply app_eq_nil in H; destruct H; congruence|]. split.
  - red. rewrite app_assoc. apply tlc_nonk; auto.
  - apply nomark_app; auto.
Qed.

Lemma nomark_okc_end : forall a i, nomark a -> unmarked i -> is_k i = false -> okc (a ++ [i]).
Proof.
  intros a i Ha Hi Hk. split; [intros H; apply app_eq_nil in H; destruct H; discriminate|]. split.
  - apply tlc_nonk; auto.
  - apply nomark_app; split; auto. constructor; auto.
Qed.

Lemma shape_all :
  (forall a, Pa a) /\ (forall e, Pe e) /\ (forall es, Pes es) /\ (forall os, Po os) /\
  (forall tn, Pt tn) /\ (forall ts, Pts ts) /\ (forall t, Ptg t).
Proof.
  apply syntax_ind.
  - intros k c E; inversion E; subst. repeat split; try discriminate; repeat constructor.
  - intros c E; inversion E; subst. repeat split; try discriminate; repeat constructor.
  - intros c E; inversion E; subst. repeat split; try discriminate; repeat constructor.
  - intros f c E; inversion E; subst. repeat split; try discriminate; repeat constructor.
  - intros f c E; inversion E; subst. repeat split; try discriminate; repeat constructor.
  - intros x c E; inversion E; subst. repeat split; try discriminate; repeat constructor.
  - intros p i t IH c E. rewrite comp_incdec_eq in E. destruct (comp_target t) as [ct|] eqn:Et; inversion E; subst.
    apply nomark_okc_end; [apply (IH _ Et) | exact I | reflexivity].
  - intros p es IH c E. rewrite comp_prim_eq in E. destruct (comp_args es) as [ct|] eqn:Et; inversion E; subst.
    apply nomark_okc_end; [apply (IH _ Et) | exact I | reflexivity].
  - intros e (_ & IH) c E. exact (IH _ E).
  - intros u a IH c E. rewrite comp_un_eq in E. destruct (comp_operand a) as [ct|] eqn:Et; inversion E; subst.
    apply nomark_okc_end; [apply (IH _ Et) | exact I | reflexivity].
  - intros ts Hts hd Hhd tl Htl tn (Ht1 & Ht2). split.
    + intros acc Hacc. rewrite !comp_expr_parts by (auto; left; reflexivity).
      destruct (comp_targets ts), (comp_operand hd), (comp_ops tl) as [ctl|]; try reflexivity.
      destruct (ptree _), (tcode tn); reflexivity.
    + intros c E. rewrite comp_expr_parts in E by (auto; left; reflexivity).
      destruct (comp_targets ts) as [cts|] eqn:Ets; [|discriminate].
      destruct (comp_operand hd) as [chd|] eqn:Eh; [|discriminate].
      destruct (comp_ops tl) as [ctl|] eqn:El; [|discriminate].
      destruct (ptree (tree_of chd ctl)) as [t|] eqn:Ep; [|discriminate].
      destruct (tcode tn) as [ct|] eqn:Et; [|discriminate]. inversion E; subst; clear E.
      cbn [app].
      assert (Ol : okl t).
      { eapply okl_ptree; [|exact Ep]. apply leaves_tree_of. split.
        - destruct (Hhd _ Eh) as (A1 & A2 & _); split; auto.
        - eapply Forall_impl; [|exact (Htl _ El)]. intros p (A1 & A2 & _); split; auto. }
      assert (O2 : okc (logic_code t ++ ct)).
      { apply okc_app_tail; [apply logic_code_ok; auto | apply (Ht2 _ eq_refl) | apply (Ht2 _ eq_refl)]. }
      destruct (Hts _ Ets) as (M & [-> | (c' & a & ->)]).
      * rewrite app_nil_r. exact O2.
      * rewrite app_assoc. apply okc_app_end; auto.
  - intros c E; inversion E; constructor.
  - intros e (_ & He) es Hes c E. rewrite comp_args_eq in E.
    destruct (comp_expr [] e) as [ce|] eqn:Ee; [|discriminate].
    destruct (comp_args es) as [ces|] eqn:Ees; [|discriminate]. inversion E; subst.
    apply nomark_app; split; [apply as_arg_nomark; apply (He _ eq_refl) | apply (Hes _ Ees)].
  - intros cs E; inversion E; constructor.
  - intros o a Ha os Hos cs E. rewrite comp_ops_eq in E.
    destruct (comp_operand a) as [ca|] eqn:Ea; [|discriminate].
    destruct (comp_ops os) as [cos|] eqn:Eo; [|discriminate]. inversion E; subst.
    constructor; [apply (Ha _ Ea) | apply (Hos _ Eo)].
  - split.
    + intros acc. cbn. rewrite app_nil_r. reflexivity.
    + intros c E; inversion E; subst. split; [constructor | auto].
  - intros e1 H1 e2 H2. split.
    + apply comp_tern_code; auto.
    + intros c E. cbn [tcode] in E.
      destruct (comp_expr [] e1) as [c1|] eqn:E1; [|discriminate].
      destruct (comp_expr [] e2) as [c2|] eqn:E2; [|discriminate]. inversion E; subst; clear E.
      destruct (proj2 H1 _ E1) as (A1 & A2 & A3). destruct (proj2 H2 _ E2) as (B1 & B2 & B3).
      split.
      * cbn [app]. constructor; [exact I|]. apply nomark_app; split; auto. constructor; [exact I | auto].
      * right. split; [cbn [length]; rewrite app_length; cbn; lia|].
        red. rewrite app_comm_cons. apply tlc_nonk2; auto.
  - intros c E; inversion E; subst. split; [constructor | auto].
  - intros t Ht a ts Hts c E. rewrite comp_targets_eq in E.
    destruct (comp_target t) as [ct|] eqn:Et; [|discriminate].
    destruct (comp_targets ts) as [cts|] eqn:Ets; [|discriminate]. inversion E; subst; clear E.
    destruct (Hts _ Ets) as (M & Sh). split.
    + apply nomark_app; split; [apply (Ht _ Et)|]. constructor; [exact I | auto].
    + right. destruct Sh as [-> | (c' & a' & ->)].
      * exists ct, a. reflexivity.
      * exists (ct ++ Asg a false :: c'), a'. rewrite <- app_assoc. reflexivity.
  - intros x c E; inversion E; repeat constructor.
  - intros p es IH c E. rewrite comp_target_eq in E. destruct (comp_args es) as [ct|] eqn:Et; inversion E; subst.
    apply nomark_app; split; [apply (IH _ Et) | repeat constructor].
Qed.

Lemma shape_operand : forall a, Pa a.
Proof. apply shape_all. Qed.
Lemma shape_ops : forall a, Po a.
Proof. apply shape_all. Qed.
Lemma shape_tern : forall tn, Pt tn.
Proof. apply shape_all. Qed.
Lemma shape_expr : forall e, Pe e.
Proof. apply shape_all. Qed.

(** The parts of a compiled expression. *)
Theorem comp_expr_inv : forall ts hd tl tn c,
  comp_expr [] (Expr ts hd tl tn) = Some c ->
  exists cts chd ctl t ct,
    comp_targets ts = Some cts /\ comp_operand hd = Some chd /\ comp_ops tl = Some ctl /\
    ptree (tree_of chd ctl) = Some t /\ tcode tn = Some ct /\
    c = logic_code t ++ ct ++ cts.
Proof.
  intros ts hd tl tn c E.
  rewrite comp_expr_parts in E;
    [| apply shape_operand | apply shape_ops | apply shape_tern | left; reflexivity].
  destruct (comp_targets ts) as [cts|] eqn:Ets; [|discriminate].
  destruct (comp_operand hd) as [chd|] eqn:Eh; [|discriminate].
  destruct (comp_ops tl) as [ctl|] eqn:El; [|discriminate].
  destruct (ptree (tree_of chd ctl)) as [t|] eqn:Ep; [|discriminate].
  destruct (tcode tn) as [ct|] eqn:Et; [|discriminate]. inversion E; subst.
  exists cts, chd, ctl, t, ct. auto 10.
Qed.

End Shape.
