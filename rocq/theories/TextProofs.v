(** Texts of formulas are compiled to code that computes their value. *)
From Coq Require Import List ZArith Bool Lia String.
From Verif Require Import Base StringModel LexModel LexSpec ParseModel ParseSpec ParseMain FloatModel ExprModel VmModel ExprSpec ExprTree ExprShape ExprProofs TextModel TextSpec.
Import ListNotations.
Local Open Scope Z_scope.

Lemma bop_op : forall o, bop_of (op_of o) = Some o.
Proof. destruct o; reflexivity. Qed.
Lemma asop_op : forall o, asop_of (op_of o) = None.
Proof. destruct o; reflexivity. Qed.
Lemma op_plain : forall o, op_of o <> OpTernaryIf /\ op_of o <> OpTernaryElse /\ ~ assignment (op_of o).
Proof. intros o. destruct o; repeat split; try discriminate; cbn; intuition discriminate. Qed.

(** ** Code of operators without constants on the left *)
Section Codes.
Variable foldk : bop -> const -> const -> fold.
Notation ptree := (ptree foldk).
Notation bin_code := (bin_code foldk).
(** It ends with an instruction that is no constant. *)
Definition open (c : code) : Prop := exists a i, c = a ++ [i] /\ is_k i = false.

Lemma open_accok : forall c, open c -> accok c.
Proof. intros c H. right. exact H. Qed.
(** Either it is the given constant, or a single instruction is no constant. *)
Definition closed (jump : bool) (k : option const) (c : code) : Prop :=
  match k with
  | Some k => c = [LoadK k]
  | None => (jump = false -> open c) /\ forall i, c = [i] -> is_k i = false
  end.
Lemma open_single : forall c, open c -> forall i, c = [i] -> is_k i = false.
Proof. intros c (a & j & -> & H) i E. destruct a as [|x a]; [injection E as <-; exact H|]. destruct a; discriminate. Qed.
Lemma closed_open : forall j c, open c -> closed j None c.
Proof. intros j c H. split; [auto | apply open_single, H]. Qed.
Lemma bin_total : forall o cl cr, o <> O_INST -> cl <> [] -> okl cr -> two_last_const (cl ++ cr) = false -> exists c, bin_code o (cl ++ cr) = Some c /\ open c.
Proof.
  intros o cl cr Ho Nl (Nr & Tr) T.
  assert (H2 : (2 <= List.length (cl ++ cr))%nat) by (rewrite !app_length; apply len_ne in Nr; apply len_ne in Nl; lia).
  destruct (snoc2_case _ _ H2) as (l & x & y & E). rewrite E in *. rewrite tlc_snoc2 in T.
  unfold ExprShape.bin_code. rewrite optimize_pair by auto. unfold opt_pair, is_k in *.
  assert (O : forall b, is_k b = false -> forall q, exists c, Some (q ++ [b]) = Some c /\ open c).
  { intros b Hb q. eexists. split; [reflexivity|]. exists q, b. auto. }
  destruct (is_const x) as [k1|], (is_const y) as [k2|]; try discriminate;
    destruct (get_register x) as [(r1, f1)|], (get_register y) as [(r2, f2)|]; apply O; reflexivity.
Qed.
Lemma bin_nomark : forall o cl cr c, o <> O_INST -> nomark cl -> nomark cr -> bin_code o (cl ++ cr) = Some c -> nomark c.
Proof.
  intros o cl cr c Ho Nl Nr E. assert (N : nomark (cl ++ cr)) by (apply nomark_app; auto).
  unfold ExprShape.bin_code in E. destruct (optimize foldk o (cl ++ cr)) as [| |c'] eqn:Eo; inversion E; subst.
  - apply nomark_app. split; [exact N | repeat constructor].
  - destruct (Nat.leb 2 (List.length (cl ++ cr))) eqn:L.
    + apply Nat.leb_le in L. destruct (snoc2_case _ _ L) as (l & x & y & Ec). rewrite Ec in *. rewrite optimize_pair in Eo by auto.
      apply nomark_app in N. destruct N as [N N2]. inversion N2 as [|? ? Ux ?]; subst. unfold opt_pair in Eo.
      assert (A : forall q i, nomark q -> unmarked i -> nomark (q ++ [i])) by (intros q i Q U; apply nomark_app; split; [exact Q | repeat constructor; exact U]).
      destruct (is_const x) as [k1|], (is_const y) as [k2|]; [destruct (foldk _ k1 k2) | | |];
        try (destruct (get_register x) as [(r1, f1)|], (get_register y) as [(r2, f2)|]); inversion Eo; subst;
        repeat apply A; auto; exact I.
    + apply Nat.leb_gt in L. destruct (cl ++ cr) as [|z [|z2 q]]; cbn in L; try lia; unfold optimize in Eo; cbn in Eo; discriminate.
Qed.
End Codes.

(** ** The operands of a text *)
Section Main.
Variable lit : literal -> option const.
Variable text : list Z -> list Z.
Variable at_ : list Z -> option var.
Variable other : okind -> ptr -> res (Z * ptr).
Variable known is_type : list Z -> bool.
Variable makes : pexpr -> bool.
Variable foldk : bop -> const -> const -> fold.
Variable good : bop -> const -> const -> bool.
Variable S : Sem.
Definition rightly (o : bop) (k1 k2 : const) : option const :=
  if good o k1 k2 then match foldk o k1 k2 with FoldK k => Some k | _ => None end else None.
Notation whole := (whole lit text rightly).
Notation safe := (safe lit text rightly).
Notation kind := (kind_of lit).
Notation w_opnd := (w_opnd other kind known is_type makes).
Notation w_ops := (w_ops other kind known is_type makes).
Notation written := (written other kind known is_type makes).
Notation operand_of := (operand_of lit text at_).
Notation expr_of := (expr_of lit text at_).
Notation chain_of := (chain_of lit text at_).
Notation ptree := (ptree foldk).
Notation comp_expr := (comp_expr foldk).
Notation comp_operand := (comp_operand foldk).
Notation value := (value lit text at_ S).
Notation text_at := (text_at lit known at_).

(** An operand: as it is read, its text, its form for the compiler, its code. *)
Record leaf := Lf { lp : popnd; lt : list Z; la : operand; lc : code }.
Definition inf_of (a : operand) : info := Info (jumpy a) (ternish a) (type_leaf a) (const_operand foldk a) (ok_operand foldk good a).
Definition leaf_ok (x : leaf) : Prop :=
  w_opnd (lp x) (lt x) /\ lt x <> [] /\ operand_of (lp x) = Some (la x) /\ comp_operand (la x) = Some (lc x) /\
  ok_operand foldk good (la x) = true /\ ternish (la x) = false /\
  type_leaf (la x) = None /\ closed (jumpy (la x)) (const_operand foldk (la x)) (lc x).

Fixpoint pops_of (l : list (bop * leaf)) : pops :=
  match l with [] => PNil | (o, x) :: l' => PCons (op_of o) (lp x) (pops_of l') end.
Fixpoint ops_of (l : list (bop * leaf)) : ops :=
  match l with [] => ONil | (o, x) :: l' => OCons o (la x) (ops_of l') end.
(** The text of what follows the first operand. *)
Inductive rest_text : list (bop * leaf) -> list Z -> Prop :=
| r_nil : rest_text [] []
| r_cons : forall o x l b1 b2 t, trivia b1 -> trivia b2 -> glue (op_of o) b1 (b2 ++ lt x) -> rest_text l t ->
    rest_text ((o, x) :: l) (b1 ++ sign o ++ b2 ++ lt x ++ t).
Lemma rest_app : forall l1 t1, rest_text l1 t1 -> forall l2 t2, rest_text l2 t2 -> rest_text (l1 ++ l2) (t1 ++ t2).
Proof.
  induction 1 as [|o x l b1 b2 t B1 B2 G R IH]; intros l2 t2 K; [exact K|]. cbn [app]. rewrite <- !app_assoc. apply r_cons; auto.
Qed.
Lemma rest_written : forall l t, rest_text l t -> Forall (fun p => leaf_ok (snd p)) l -> w_ops (pops_of l) t.
Proof.
  induction 1 as [|o x l b1 b2 t B1 B2 G R IH]; intros F; [constructor|]. inversion F as [|? ? K F']; subst.
  cbn [pops_of]. destruct (op_plain o) as (N1 & N2 & _). destruct K as (W & _). apply w_cons; auto.
Qed.
Lemma pops_plain : forall l, no_assignment (pops_of l).
Proof. induction l as [|(o, x) l IH]; cbn; [exact I|]. split; [apply op_plain | exact IH]. Qed.
Lemma pops_assigns : forall h l, assigns h (pops_of l).
Proof. intros h [|(o, x) l]; cbn; [exact I|]. right. split; [apply op_plain | apply pops_plain]. Qed.
Lemma chain_pops : forall l a, Forall (fun p => leaf_ok (snd p)) l -> chain_of (Some a) (pops_of l) = Some (TgNil, a, ops_of l).
Proof.
  induction l as [|(o, x) l IH]; intros a F; [reflexivity|]. inversion F as [|? ? K F']; subst. destruct K as (_ & _ & K & _). cbn [snd] in K.
  cbn [pops_of ops_of]. rewrite chain_of_eq, asop_op, bop_op, K, IH by auto. reflexivity.
Qed.
Lemma comp_ops_of : forall l, Forall (fun p => leaf_ok (snd p)) l -> comp_ops foldk (ops_of l) = Some (map (fun p => (fst p, lc (snd p))) l).
Proof.
  induction l as [|(o, x) l IH]; intros F; [reflexivity|]. inversion F as [|? ? K F']; subst. destruct K as (_ & _ & _ & K & _). cbn [snd] in K.
  cbn [ops_of]. rewrite comp_ops_eq, K, IH by auto. reflexivity.
Qed.
Lemma ops_den_of : forall l, ops_den S (ops_of l) = map (fun p => (fst p, (eval_operand S (la (snd p)), type_leaf (la (snd p))))) l.
Proof. induction l as [|(o, x) l IH]; [reflexivity|]. cbn [ops_of map fst snd]. cbn [ops_den]. fold (ops_den S). rewrite IH. reflexivity. Qed.
Lemma ok_ops_of : forall l, ok_ops foldk good (ops_of l) = map (fun p => (fst p, inf_of (la (snd p)))) l.
Proof. induction l as [|(o, x) l IH]; [reflexivity|]. cbn [ops_of map fst snd]. cbn [ok_ops]. fold (ok_ops foldk good). rewrite IH. reflexivity. Qed.
Lemma const_ops_of : forall l, const_ops foldk (ops_of l) = map (fun p => (fst p, const_operand foldk (la (snd p)))) l.
Proof. induction l as [|(o, x) l IH]; [reflexivity|]. cbn [ops_of map fst snd]. cbn [const_ops]. fold (const_ops foldk). rewrite IH. reflexivity. Qed.
Lemma any_logic_of : forall l, any_logic (ops_of l) = existsb (fun p => is_logic (fst p)) l.
Proof. induction l as [|(o, x) l IH]; [reflexivity|]. cbn. rewrite IH. reflexivity. Qed.

Definition root_logic {A} (T : tree A) : bool := match T with Leaf _ => false | Node o _ _ => is_logic o end.

(** The tree of tokens belongs to their grouping. *)
Lemma tree_of_map : forall B (f : leaf -> B) (U : tree leaf), by_priority U ->
  tree_of (f (first_leaf U)) (map (fun p => (fst p, f (snd p))) (rest_toks U)) = tmap f U.
Proof.
  intros B f U P. rewrite tree_of_tmap. f_equal. destruct (tree_of_spec (first_leaf U) (rest_toks U)) as (Q & E1 & E2).
  apply tree_unique; congruence || auto.
Qed.
Lemma logic_root : forall A (U : tree A), by_priority U -> existsb (fun p => is_logic (fst p)) (rest_toks U) = root_logic U.
Proof.
  intros A U P. destruct U as [a|o l r]; [reflexivity|]. cbn [root_logic rest_toks]. rewrite existsb_app. cbn [existsb fst].
  destruct P as (Pl & Pr & _). destruct (is_logic o) eqn:E; [rewrite orb_true_r; reflexivity|]. cbn [orb].
  assert (N : forall (V : tree A), all_ops (fun x => (binds o <= binds x)%nat) V -> existsb (fun p => is_logic (fst p)) (rest_toks V) = false).
  { induction V as [|o' l' IHl r' IHr]; [reflexivity|]. cbn [all_ops rest_toks]. intros (H & Hl & Hr). rewrite existsb_app. cbn [existsb fst].
    rewrite IHl, IHr by auto. destruct o, o'; try discriminate; try reflexivity; cbn in H; lia. }
  rewrite (N l), (N r); auto. eapply all_ops_impl; [|exact Pr]. intros x Hx. cbn in Hx. lia.
Qed.

Lemma tmap_tmap : forall A B C (f : A -> B) (g : B -> C) U, tmap g (tmap f U) = tmap (fun x => g (f x)) U.
Proof. induction U as [|o l IHl r IHr]; cbn; [reflexivity|]. rewrite IHl, IHr. reflexivity. Qed.
Lemma glue_hd : forall o b1 x y, hd 0 x = hd 0 y -> glue o b1 x -> glue o b1 y.
Proof. intros o b1 x y H (G1 & G2 & G3 & G4). unfold glue. rewrite <- H. auto. Qed.
Lemma hd_same : forall (b x y : list Z), x <> [] -> hd 0 (b ++ x ++ y) = hd 0 (b ++ x).
Proof. intros b x y H. destruct b; [|reflexivity]. destruct x; [congruence | reflexivity]. Qed.
Lemma leaves_rest : forall (U : tree leaf), leaves leaf_ok U -> leaf_ok (first_leaf U) /\ Forall (fun p => leaf_ok (snd p)) (rest_toks U).
Proof. intros U H. apply leaves_toks in H. exact H. Qed.
Lemma leaves_codes : forall (U : tree leaf), leaves leaf_ok U -> leaves okl (tmap lc U) /\ leaves (fun c => nomark c) (tmap lc U).
Proof.
  induction U as [x|o l IHl r IHr]; cbn [leaves tmap].
  - intros (_ & _ & _ & C & _). destruct (shape_operand foldk _ _ C) as (A & B & N). repeat split; auto.
  - intros (Hl & Hr). destruct (IHl Hl), (IHr Hr). auto.
Qed.

(** What a text is read as and compiled to. *)
Definition reads (l : nat) (T : formula) (t : list Z) (U : tree leaf) : Prop :=
  (exists tr, t = lt (first_leaf U) ++ tr /\ rest_text (rest_toks U) tr) /\
  by_priority U /\ all_ops (fun x => (l <= binds x)%nat) U /\ leaves leaf_ok U /\
  ok_tree foldk good (tmap (fun x => inf_of (la x)) U) = true /\
  const_tree foldk (tmap (fun x => const_operand foldk (la x)) U) = whole T /\
  (exists c, ptree (tmap lc U) = Some c /\ closed (top_logic T) (whole T) c /\ (root_logic U = false -> nomark c)) /\
  top_logic T = match U with Leaf x => jumpy (la x) | Node o _ _ => is_logic o end /\
  (forall w, eval_tree S (tmap (fun x => (eval_operand S (la x), type_leaf (la x))) U) w = value T w).

Definition expr_of_tree (U : tree leaf) : expr := Expr TgNil (la (first_leaf U)) (ops_of (rest_toks U)) TNone.
Definition pexpr_of_tree (U : tree leaf) : pexpr := PExpr (lp (first_leaf U)) (pops_of (rest_toks U)) PNoTern.

Lemma tree_written : forall l T t U, reads l T t U -> written (pexpr_of_tree U) t.
Proof.
  intros l T t U ((tr & -> & R) & _ & _ & L & _). destruct (leaves_rest U L) as ((W & _) & F).
  pose proof (w_expr other kind known is_type makes _ _ _ _ _ _ W (rest_written _ _ R F) (w_notern _ _ _ _ _) (pops_assigns _ _)) as H.
  rewrite app_nil_r in H. exact H.
Qed.
Lemma tree_expr : forall l T t U, reads l T t U -> expr_of (pexpr_of_tree U) = Some (expr_of_tree U).
Proof.
  intros l T t U (_ & _ & _ & L & _). destruct (leaves_rest U L) as ((_ & _ & O & _) & F).
  unfold pexpr_of_tree. rewrite expr_of_eq, O, chain_pops by auto. reflexivity.
Qed.
Lemma tree_comp : forall l T t U, reads l T t U -> exists c, comp_expr [] (expr_of_tree U) = Some (logic_code c) /\ ptree (tmap lc U) = Some c.
Proof.
  intros l T t U (_ & P & _ & L & _ & _ & (c & C & _) & _). exists c. split; [|exact C].
  destruct (leaves_rest U L) as ((_ & _ & _ & O & _) & F). unfold expr_of_tree.
  rewrite comp_expr_parts; [|apply shape_operand | apply shape_ops | apply shape_tern | left; reflexivity].
  change (comp_targets foldk TgNil) with (Some (@nil instr)). rewrite O, comp_ops_of by auto.
  rewrite (tree_of_map _ lc U P), C. cbn [tcode app]. rewrite app_nil_r. reflexivity.
Qed.
Lemma tree_ok : forall l T t U, reads l T t U -> ok_expr foldk good (expr_of_tree U) = true.
Proof.
  intros l T t U (_ & P & _ & L & O & _). unfold expr_of_tree.
  change (true && true && ok_tree foldk good (tree_of (inf_of (la (first_leaf U))) (ok_ops foldk good (ops_of (rest_toks U)))) = true).
  rewrite ok_ops_of, (tree_of_map _ (fun x => inf_of (la x)) U P). exact O.
Qed.
Lemma tree_eval : forall l T t U, reads l T t U -> forall w, eval_expr S (expr_of_tree U) w = value T w.
Proof.
  intros l T t U (_ & P & _ & L & _ & _ & _ & _ & V) w. unfold expr_of_tree.
  change (ebind (eval_tree S (tree_of (eval_operand S (la (first_leaf U)), type_leaf (la (first_leaf U))) (ops_den S (ops_of (rest_toks U)))) w)
    (fun v w1 => ebind (EOk v w1) (fun v2 w2 => EOk v2 w2)) = value T w).
  rewrite ops_den_of, (tree_of_map _ (fun x => (eval_operand S (la x), type_leaf (la x))) U P), V. destruct (value T w); reflexivity.
Qed.

Lemma leaf_reads : forall l T x, leaf_ok x -> (forall w, eval_operand S (la x) w = value T w) -> top_logic T = jumpy (la x) ->
  const_operand foldk (la x) = whole T -> reads l T (lt x) (Leaf x).
Proof.
  intros l T x K V J Kc. pose proof K as (W & N & O & C & Q & Tn & Ty & Op). pose proof (shape_operand foldk _ _ C) as (_ & _ & M).
  split; [exists []; rewrite app_nil_r; split; [reflexivity | constructor]|]. repeat split; auto.
  exists (lc x). repeat split; auto. rewrite J, <- Kc. exact Op.
Qed.

Lemma word_var : forall w x, name w -> at_ w = Some x -> word_of at_ w = Some (AVar x).
Proof.
  intros w x (_ & _ & NT & NN & _) E. unfold word_of, list_eqb.
  destruct (list_eq_dec Z.eq_dec w (bytes "undefined")); [exfalso; apply NN; left; assumption|].
  destruct (list_eq_dec Z.eq_dec w (bytes "null")); [exfalso; apply NN; right; assumption|].
  assert (SL : forall v, map lower w = v -> same_letters w v).
  { intros v <-. clear. induction w as [|c w IH]; cbn [map]; constructor; [|exact IH]. unfold lower, in_range.
    destruct (65 <=? c) eqn:A, (c <=? 90) eqn:B; cbn [andb]; apply Z.leb_le in A || apply Z.leb_gt in A; apply Z.leb_le in B || apply Z.leb_gt in B; [right|left|left|left]; lia. }
  destruct (list_eq_dec Z.eq_dec (map lower w) (bytes "true")) as [E1|]; [exfalso; apply NT; left; apply SL; exact E1|].
  destruct (list_eq_dec Z.eq_dec (map lower w) (bytes "false")) as [E1|]; [exfalso; apply NT; right; apply SL; exact E1|].
  rewrite E. reflexivity.
Qed.
Lemma letters_lower : forall w v, same_letters w v -> Forall (fun c => 97 <= c <= 122) v -> map lower w = v.
Proof.
  intros w v H. induction H as [|c d w v H0 H IH]; intros F; [reflexivity|]. inversion F as [|? ? Hd F']; subst. cbn [map]. rewrite (IH F'). f_equal.
  unfold lower, in_range. destruct (65 <=? c) eqn:A, (c <=? 90) eqn:B; cbn [andb]; apply Z.leb_le in A || apply Z.leb_gt in A; apply Z.leb_le in B || apply Z.leb_gt in B; lia.
Qed.
Lemma word_truth : forall b w, same_letters w (truth_word b) -> word_of at_ w = Some (AConst (KBool b)).
Proof.
  intros b w H. assert (E : map lower w = truth_word b) by (apply letters_lower; [exact H | destruct b; cbn; repeat (apply Forall_cons; [lia|]); apply Forall_nil]).
  assert (N : forall v, map lower v = v -> v <> truth_word b -> list_eqb w v = false).
  { intros v Hv Hn. unfold list_eqb. destruct (list_eq_dec Z.eq_dec w v) as [->|]; [congruence | reflexivity]. }
  unfold word_of. rewrite (N (bytes "undefined")), (N (bytes "null")) by (reflexivity || (destruct b; discriminate)). rewrite E. destruct b; reflexivity.
Qed.
Lemma atom_reads : forall l a t, atom_text lit known at_ a t -> exists U, reads l (Atom a) t U.
Proof.
  intros l a t H.
  assert (NE : forall w, name w -> w <> []) by (intros w ((c & w' & -> & _) & _); discriminate).
  assert (NN : forall v, numeral v -> v <> []).
  { intros v N E. subst v. destruct N as [N|[N|N]]; inversion N; try congruence; match goal with Q : _ ++ _ = [] |- _ => apply app_eq_nil in Q; destruct Q; discriminate end. }
  assert (ONE : forall pre p c s t0 post x k tt, tt = p ++ t0 ++ postfix post ->
     prefix pre p -> w_core other kind known is_type makes c s t0 -> t0 <> [] -> fits s pre post -> pre <> Some PreTypeof ->
     operand_of (POpd pre c ANil post) = Some x -> comp_operand x = Some k -> ok_operand foldk good x = true -> ternish x = false -> type_leaf x = None ->
     jumpy x = false -> closed false (const_operand foldk x) k -> const_operand foldk x = constant lit text a ->
     (forall w, eval_operand S x w = atom_value lit text at_ S a w) -> exists U, reads l (Atom a) tt U).
  { intros pre p c s t0 post x k tt -> Hp Hc Hn Hf Ht Ho Hk Hg H1 H2 Hj Hcl Hco Hv.
    exists (Leaf (Lf (POpd pre c ANil post) (p ++ t0 ++ postfix post) x k)).
    match goal with |- reads _ _ _ (Leaf ?lf) => apply (leaf_reads l (Atom a) lf) end; cbn [la]; [|exact Hv | cbn [top_logic]; congruence | exact Hco].
    split; [|repeat split; cbn [lt lp la lc]; auto].
    - cbn [lp lt]. change (p ++ t0 ++ postfix post) with (p ++ t0 ++ [] ++ postfix post). apply (w_opd other kind known is_type makes pre p c s t0 ANil [] post); auto; [constructor | intros E; congruence].
    - intros E. apply app_eq_nil in E. destruct E as (_ & E). apply app_eq_nil in E. destruct E. auto.
    - rewrite Hj. exact Hcl. }
  destruct H as [w N K A|m b w N K A B|inc w N K A|inc b w N K A B|v N K|m b v N K B|v N|b w N|b b1 w N B| |];
    try (destruct (at_ w) as [x|] eqn:E; try congruence; clear A).
  - apply (ONE None [] (CWord w) SName w None (AVar x) [LoadVar x]); [cbn [postfix app]; rewrite ?app_nil_r, <- ?app_assoc; reflexivity | ..]; auto; try reflexivity; try discriminate; try (repeat split; fail).
    + constructor; auto.
    + rewrite operand_of_eq, core_word_eq, (word_var w x N E). reflexivity.
    + apply closed_open. exists [], (LoadVar x). split; reflexivity.
    + intros wd. cbn. unfold name_value. rewrite E. reflexivity.
  - apply (ONE (Some (mark_pre m)) (mark_text m ++ b) (CWord w) SName w None (AUn (mark_op m) (AVar x)) [LoadVar x; Un (mark_op m)]); [cbn [postfix app]; rewrite ?app_nil_r, <- ?app_assoc; reflexivity | ..]; auto; try reflexivity; try (destruct m; discriminate); try (repeat split; fail).
    + split; [destruct m; discriminate|]. exists b. repeat split; auto; destruct m; try reflexivity; discriminate.
    + constructor; auto.
    + rewrite operand_of_eq, core_word_eq, (word_var w x N E). destruct m; reflexivity.
    + apply closed_open. exists [LoadVar x], (Un (mark_op m)). split; reflexivity.
    + intros wd. cbn. unfold name_value. rewrite E. reflexivity.
  - apply (ONE None [] (CWord w) SName w (Some inc) (AIncDec true inc (TVar x)) [PushVar x; IncDec true inc false]); [cbn [postfix app]; rewrite ?app_nil_r, <- ?app_assoc; reflexivity | ..]; auto; try reflexivity; try discriminate.
    + constructor; auto.
    + split; [split; [reflexivity | left; reflexivity] | exact I].
    + rewrite operand_of_eq, core_word_eq, (word_var w x N E). reflexivity.
    + apply closed_open. exists [PushVar x], (IncDec true inc false). split; reflexivity.
    + intros wd. cbn. rewrite E. reflexivity.
  - apply (ONE (Some (if inc then PreInc else PreDec)) ((if inc then bytes "++" else bytes "--") ++ b) (CWord w) SName w None (AIncDec false inc (TVar x)) [PushVar x; IncDec false inc false]); [cbn [postfix app]; rewrite ?app_nil_r, <- ?app_assoc; reflexivity | ..]; auto; try reflexivity; try (destruct inc; discriminate); try (repeat split; fail).
    + split; [destruct inc; discriminate|]. exists b. repeat split; auto; destruct inc; try reflexivity; discriminate.
    + constructor; auto.
    + rewrite operand_of_eq, core_word_eq, (word_var w x N E). destruct inc; reflexivity.
    + apply closed_open. exists [PushVar x], (IncDec false inc false). split; reflexivity.
    + intros wd. cbn. rewrite E. reflexivity.
  - destruct (number lit None v) as [k|] eqn:En; [|congruence]. unfold number in En. destruct (lit (LText v)) as [k0|] eqn:El; [|discriminate].
    destruct (is_number k0) eqn:Ik; [|discriminate]. cbn [marked] in En. injection En as ->.
    apply (ONE None [] (CLit (LText v)) (match k with KInt _ => SInt | _ => SFloat end) v None (AConst k) [LoadK k]); [cbn [postfix app]; rewrite ?app_nil_r, <- ?app_assoc; reflexivity | ..]; auto; try reflexivity; try discriminate.
    + destruct k; try discriminate; constructor; auto; unfold kind_of; rewrite El; reflexivity.
    + destruct k; try discriminate; (split; [exact I | left; reflexivity]).
    + rewrite operand_of_eq. cbn [core_of]. rewrite El. reflexivity.
    + cbn. unfold number. rewrite El, Ik. reflexivity.
    + intros wd. cbn. unfold number. rewrite El, Ik. reflexivity.
  - destruct (number lit (Some m) v) as [k|] eqn:En; [|congruence]. pose proof En as En'. unfold number in En. destruct (lit (LText v)) as [k0|] eqn:El; [|discriminate].
    destruct (is_number k0) eqn:Ik; [|discriminate].
    apply (ONE (Some (mark_pre m)) (mark_text m ++ b) (CLit (LText v)) (match k0 with KInt _ => SInt | _ => SFloat end) v None (AConst k) [LoadK k]); [cbn [postfix app]; rewrite ?app_nil_r, <- ?app_assoc; reflexivity | ..]; auto; try reflexivity; try (destruct m; discriminate).
    + split; [destruct m; discriminate|]. exists b. repeat split; auto; destruct m; try reflexivity; discriminate.
    + destruct k0; try discriminate; constructor; auto; unfold kind_of; rewrite El; reflexivity.
    + destruct k0; try discriminate; destruct m; try discriminate; (split; [exact I | cbn; tauto]).
    + rewrite operand_of_eq. cbn [core_of]. rewrite El. cbn [counted]. destruct k0, m; try discriminate; cbn in En |- *; try (injection En as <-; reflexivity). destruct (_ =? _); [discriminate | injection En as <-; reflexivity].
    + intros wd. cbn. rewrite En'. reflexivity.
  - apply (ONE None [] (CStr v) SString (34 :: v ++ [34]) None (AConst (KStr (text v))) [LoadK (KStr (text v))]); [cbn [postfix app]; rewrite ?app_nil_r, <- ?app_assoc; reflexivity | ..]; auto; try reflexivity; try discriminate.
    + constructor; auto.
    + split; [exact I | left; reflexivity].
  - apply (ONE None [] (CWord w) STruth w None (AConst (KBool b)) [LoadK (KBool b)]); [cbn [postfix app]; rewrite ?app_nil_r, <- ?app_assoc; reflexivity | ..]; auto; try reflexivity; try discriminate.
    + constructor. destruct b; [left | right]; exact N.
    + intros ->. inversion N. destruct b; discriminate.
    + split; [exact I | left; reflexivity].
    + rewrite operand_of_eq, core_word_eq, (word_truth b w N). reflexivity.
    + cbn. destruct b; reflexivity.
    + intros wd. destruct b; reflexivity.
  - apply (ONE (Some PreNot) (33 :: b1) (CWord w) STruth w None (AConst (KBool (negb b))) [LoadK (KBool (negb b))]); [cbn [postfix app]; rewrite ?app_nil_r, <- ?app_assoc; reflexivity | ..]; auto; try reflexivity; try discriminate.
    + split; [discriminate|]. exists b1. repeat split; auto; discriminate.
    + constructor. destruct b; [left | right]; exact N.
    + intros ->. inversion N. destruct b; discriminate.
    + split; [exact I | cbn; tauto].
    + rewrite operand_of_eq, core_word_eq, (word_truth b w N). reflexivity.
    all: destruct b; reflexivity.
  - apply (ONE None [] (CWord (bytes "undefined")) SNothing (bytes "undefined") None AUndef [LoadUndef]); [cbn [postfix app]; rewrite ?app_nil_r, <- ?app_assoc; reflexivity | ..]; auto; try reflexivity; try discriminate.
    + constructor. left. reflexivity.
    + split; [exact I | left; reflexivity].
    + apply closed_open. exists [], LoadUndef. split; reflexivity.
  - apply (ONE None [] (CWord (bytes "null")) SNothing (bytes "null") None ANull [LoadNull]); [cbn [postfix app]; rewrite ?app_nil_r, <- ?app_assoc; reflexivity | ..]; auto; try reflexivity; try discriminate.
    + constructor. right. reflexivity.
    + split; [exact I | left; reflexivity].
    + apply closed_open. exists [], LoadNull. split; reflexivity.
Qed.

Lemma paren_reads : forall l T t b1 b2 U, reads 0 T t U -> trivia b1 -> trivia b2 -> exists V, reads l T (40 :: b1 ++ t ++ b2 ++ [41]) V.
Proof.
  intros l T t b1 b2 U R B1 B2. destruct (tree_comp _ _ _ _ R) as (c & C & Pc).
  pose proof (tree_written _ _ _ _ R) as W. pose proof (tree_expr _ _ _ _ R) as E. pose proof (tree_ok _ _ _ _ R) as O. pose proof (tree_eval _ _ _ _ R) as V.
  destruct R as (_ & P & _ & L & _ & K & (c' & C' & Op & Nm) & J & _). rewrite Pc in C'. injection C' as <-.
  assert (JJ : jumpy (AParen (expr_of_tree U)) = top_logic T).
  { rewrite J. unfold expr_of_tree. destruct U as [x|o u1 u2]; [reflexivity|]. pose proof (logic_root _ _ P) as G. rewrite <- any_logic_of in G. cbn [root_logic] in G. rewrite <- G.
    cbn [first_leaf]. destruct (ops_of (rest_toks (Node o u1 u2))) eqn:Eo; [|reflexivity].
    exfalso. cbn [rest_toks] in Eo. destruct (rest_toks u1) as [|(?, ?) ?]; discriminate. }
  assert (KK : const_operand foldk (AParen (expr_of_tree U)) = whole T).
  { change (const_operand foldk (AParen (expr_of_tree U))) with (const_tree foldk (tree_of (const_operand foldk (la (first_leaf U))) (const_ops foldk (ops_of (rest_toks U))))).
    rewrite const_ops_of, (tree_of_map _ (fun x => const_operand foldk (la x)) U P). exact K. }
  exists (Leaf (Lf (POpd None (CParen (pexpr_of_tree U)) ANil None) (40 :: b1 ++ t ++ b2 ++ [41]) (AParen (expr_of_tree U)) (logic_code c))).
  match goal with |- reads _ _ _ (Leaf ?lf) => apply (leaf_reads l T lf) end; [| exact V | cbn [la]; congruence | exact KK].
  split; [|repeat split; cbn [lt lp la lc]; auto].
  - cbn [lp lt]. pose proof (w_opd other kind known is_type makes None [] (CParen (pexpr_of_tree U)) SParen (40 :: b1 ++ t ++ b2 ++ [41]) ANil [] None) as Q. cbn [app postfix] in Q. rewrite app_nil_r in Q.
    apply Q; [reflexivity | constructor; auto | constructor | repeat split | discriminate | left; reflexivity]. left. reflexivity.
  - discriminate.
  - rewrite operand_of_eq, core_paren_eq, E. reflexivity.
  - unfold expr_of_tree. destruct (leaves_rest U L) as ((_ & _ & _ & _ & _ & Tn & _) & _). cbn [ternish]. destruct (ops_of (rest_toks U)); [exact Tn | reflexivity].
  - rewrite JJ, KK. revert Op. unfold closed. destruct (whole T) as [k|] eqn:Ek.
    + intros ->. apply logic_code_nomark. apply Nm. destruct U as [x|o u1 u2]; [reflexivity|]. cbn [tmap const_tree] in K. cbn [root_logic]. destruct (is_logic o); [discriminate | reflexivity].
    + intros (Op & Sg). split.
      * intros H. rewrite logic_code_nomark; [auto|]. apply Nm. rewrite J in H. destruct U as [x|o u1 u2]; [reflexivity | exact H].
      * destruct (logic_code_shape c) as [(_ & ->) | (_ & c' & k & ->)]; [exact Sg|]. intros i Ei. destruct c' as [|? [|? ?]]; discriminate.
Qed.

Lemma mark_reads : forall l m b0 T t b1 b2 U, reads 0 T t U -> trivia b0 -> trivia b1 -> trivia b2 ->
  exists V, reads l (Mark m T) (mark_text m ++ b0 ++ 40 :: b1 ++ t ++ b2 ++ [41]) V.
Proof.
  intros l m b0 T t b1 b2 U R B0 B1 B2. destruct (tree_comp _ _ _ _ R) as (c & C & Pc).
  pose proof (tree_written _ _ _ _ R) as W. pose proof (tree_expr _ _ _ _ R) as E. pose proof (tree_ok _ _ _ _ R) as O. pose proof (tree_eval _ _ _ _ R) as V.
  exists (Leaf (Lf (POpd (Some (mark_pre m)) (CParen (pexpr_of_tree U)) ANil None) (mark_text m ++ b0 ++ 40 :: b1 ++ t ++ b2 ++ [41])
    (AUn (mark_op m) (AParen (expr_of_tree U))) (logic_code c ++ [Un (mark_op m)]))).
  match goal with |- reads _ _ _ (Leaf ?lf) => apply (leaf_reads l (Mark m T) lf) end; [| | reflexivity | reflexivity].
  - split; [|split; [|split; [|split; [|split; [|split; [|split]]]]]]; cbn [lt lp la lc].
    + pose proof (w_opd other kind known is_type makes (Some (mark_pre m)) (mark_text m ++ b0) (CParen (pexpr_of_tree U)) SParen (40 :: b1 ++ t ++ b2 ++ [41]) ANil [] None) as Q. cbn [app postfix] in Q. rewrite <- app_assoc, app_nil_r in Q.
      apply Q; [| constructor; auto | constructor | split; [exact I | destruct m; cbn; tauto] | destruct m; discriminate | left; reflexivity].
      split; [destruct m; discriminate|]. exists b0. repeat split; auto; destruct m; try reflexivity; discriminate.
    + destruct m; discriminate.
    + rewrite operand_of_eq, core_paren_eq, E. destruct m; reflexivity.
    + change (comp_operand (AUn (mark_op m) (AParen (expr_of_tree U)))) with (match comp_expr [] (expr_of_tree U) with Some c => Some (c ++ [Un (mark_op m)]) | None => None end). rewrite C. reflexivity.
    + exact O.
    + reflexivity.
    + reflexivity.
    + apply closed_open. exists (logic_code c), (Un (mark_op m)). split; reflexivity.
  - intros w. cbn [la TextSpec.value]. change (eval_operand S (AUn (mark_op m) (AParen (expr_of_tree U))) w) with (ebind (eval_expr S (expr_of_tree U) w) (fun v w1 => unop S (mark_op m) v w1)). rewrite V. reflexivity.
Qed.

Lemma node_reads : forall l o L R t1 b1 b2 t2 U1 U2, (l <= binds o)%nat -> o <> O_INST ->
  reads (binds o) L t1 U1 -> reads (Datatypes.S (binds o)) R t2 U2 -> trivia b1 -> trivia b2 ->
  glue (op_of o) b1 (b2 ++ t2) -> (is_logic o = false -> top_logic L = false /\ forall k1 k2, whole L = Some k1 -> whole R = Some k2 -> rightly o k1 k2 <> None) ->
  reads l (Op o L R) (t1 ++ b1 ++ sign o ++ b2 ++ t2) (Node o U1 U2).
Proof.
  intros l o L R t1 b1 b2 t2 U1 U2 Hl Ho R1 R2 B1 B2 G Sf.
  destruct R1 as ((tr1 & -> & X1) & P1 & A1 & L1 & O1 & K1 & (c1 & C1 & Op1 & Nm1) & J1 & V1).
  destruct R2 as ((tr2 & -> & X2) & P2 & A2 & L2 & O2 & K2 & (c2 & C2 & Op2 & Nm2) & J2 & V2).
  destruct (leaves_rest U2 L2) as ((_ & N2 & _) & _).
  split.
  { exists (tr1 ++ b1 ++ sign o ++ b2 ++ lt (first_leaf U2) ++ tr2). cbn [first_leaf rest_toks]. rewrite <- !app_assoc. split; [reflexivity|].
    apply rest_app; [exact X1|]. apply r_cons; auto. eapply glue_hd; [|exact G]. apply hd_same. exact N2. }
  split; [exact (conj A1 (conj A2 (conj P1 P2)))|].
  split; [split; [exact Hl|]; split; [eapply all_ops_impl; [|exact A1] | eapply all_ops_impl; [|exact A2]]; intros x Hx; cbn in Hx; lia|].
  split; [split; auto|].
  assert (LJ : is_logic o = false -> leaf_jump (tmap (fun x => inf_of (la x)) U1) = false).
  { intros H. destruct U1; [|reflexivity]. cbn. rewrite <- J1. apply Sf, H. }
  assert (LT : leaf_tern (tmap (fun x => inf_of (la x)) U2) = false).
  { destruct U2 as [x|]; [|reflexivity]. cbn. destruct L2 as (_ & _ & _ & _ & _ & H & _). exact H. }
  split.
  { cbn [tmap ok_tree]. rewrite O1, O2, LT. cbn [andb negb]. rewrite tmap_tmap. cbn [i_const inf_of]. rewrite K1, tmap_tmap. cbn [i_const inf_of]. rewrite K2.
    destruct (is_logic o) eqn:Lo; [reflexivity|]. rewrite (LJ eq_refl). destruct (Sf eq_refl) as (_ & Sk).
    assert (GG : match whole L, whole R with Some k1, Some k2 => good o k1 k2 | _, _ => true end = true).
    { destruct (whole L) as [k1|], (whole R) as [k2|]; try reflexivity. specialize (Sk _ _ eq_refl eq_refl). unfold rightly in Sk. destruct (good o k1 k2); [reflexivity | congruence]. }
    destruct o; try congruence; exact GG. }
  split.
  { cbn [tmap const_tree TextSpec.whole]. rewrite K1, K2. destruct (is_logic o) eqn:Lo; [reflexivity|]. destruct (Sf eq_refl) as (_ & Sk).
    assert (GG : match whole L, whole R with Some k1, Some k2 => match foldk o k1 k2 with FoldK k => Some k | _ => None end | _, _ => None end =
                 match whole L, whole R with Some k1, Some k2 => rightly o k1 k2 | _, _ => None end).
    { destruct (whole L) as [k1|], (whole R) as [k2|]; try reflexivity. specialize (Sk _ _ eq_refl eq_refl). unfold rightly in *. destruct (good o k1 k2); [reflexivity | congruence]. }
    destruct o; try congruence; exact GG. }
  destruct (leaves_codes U2 L2) as (K2' & M2). pose proof (okl_ptree foldk _ _ K2' C2) as Ok2.
  destruct (leaves_codes U1 L1) as (K1' & M1). pose proof (okl_ptree foldk _ _ K1' C1) as Ok1.
  split.
  { cbn [tmap ExprShape.ptree]. fold ptree. rewrite C1, C2. destruct (is_logic o) eqn:Lo.
    - destruct o; try discriminate; eexists; split; try reflexivity; (split; [|intros Z; discriminate]); cbn [TextSpec.whole top_logic is_logic]; split; try discriminate;
        intros i Ei; destruct c1 as [|? c1]; try (exfalso; apply (proj1 Ok1); reflexivity); destruct c1; discriminate.
    - assert (U1l : root_logic U1 = false). { destruct (Sf eq_refl) as (Sf' & _). rewrite J1 in Sf'. destruct U1; [reflexivity | exact Sf']. }
      assert (U2l : root_logic U2 = false).
      { destruct U2 as [|o2 ? ?]; [reflexivity|]. cbn [root_logic]. cbn [all_ops] in A2. destruct A2 as (A2 & _). destruct o, o2; try reflexivity; try discriminate; cbn in A2; lia. }
      assert (BB : exists c, bin_code foldk o (c1 ++ c2) = Some c /\ closed (top_logic (Op o L R)) (whole (Op o L R)) c).
      { cbn [top_logic TextSpec.whole]. rewrite Lo. destruct (Sf eq_refl) as (Sr & Sk).
        destruct (whole L) as [k1|] eqn:EL.
        - cbn [closed] in Op1. subst c1. destruct (whole R) as [k2|] eqn:ER.
          + cbn [closed] in Op2. subst c2. specialize (Sk _ _ eq_refl eq_refl). unfold rightly in *. destruct (good o k1 k2); [|congruence].
            exists (match foldk o k1 k2 with FoldK k => [LoadK k] | _ => [] end). destruct (foldk o k1 k2) as [| |k] eqn:Ef; try congruence.
            split; [|reflexivity]. unfold ExprShape.bin_code. change ([LoadK k1] ++ [LoadK k2]) with ([] ++ [LoadK k1; LoadK k2]). rewrite optimize_pair by auto.
            unfold opt_pair. cbn [is_const]. rewrite Ef. reflexivity.
          + destruct Op2 as (_ & Sg). destruct (bin_total foldk o [LoadK k1] c2 Ho) as (c & C & Opn); [discriminate | exact Ok2 | | exists c; split; [exact C | apply closed_open, Opn]].
            destruct Ok2 as (N2' & T2'). destruct c2 as [|i [|j c2]]; [congruence | | rewrite (tlc_app [LoadK k1]) by (cbn; lia); exact T2'].
            specialize (Sg i eq_refl). change ([LoadK k1] ++ [i]) with ([] ++ [LoadK k1; i]). rewrite tlc_snoc2, Sg. apply andb_false_r.
        - destruct Op1 as (Op1 & _). specialize (Op1 Sr).
          destruct (bin_total foldk o c1 c2 Ho) as (c & C & Opn); [exact (proj1 Ok1) | exact Ok2 | apply accok_ntc; [apply open_accok; exact Op1 | apply Ok2 | apply Ok2] | exists c; split; [exact C | apply closed_open, Opn]]. }
      destruct BB as (c & C & Cl).
      exists c. split; [destruct o; try discriminate; exact C|]. split; [exact Cl|]. intros _. eapply bin_nomark; [exact Ho | | | exact C]; auto. }
  split; [reflexivity|].
  intros w. cbn [tmap TextSpec.value].
  assert (E1 : forall w, eval_tree S (tmap (fun x => (eval_operand S (la x), type_leaf (la x))) U1) w = value L w) by exact V1.
  assert (E2 : forall w, eval_tree S (tmap (fun x => (eval_operand S (la x), type_leaf (la x))) U2) w = value R w) by exact V2.
  destruct o; try congruence; cbn [eval_tree fst]; rewrite E1; destruct (value L w) as [v1 w1|w1]; cbn [ebind]; try reflexivity; try (rewrite E2; reflexivity);
    unfold truth; destruct (vbool S v1) as [[|]|]; cbn [ebind]; auto.
Qed.

Theorem text_reads : forall l T t, text_at l T t -> safe T -> exists U, reads l T t U.
Proof.
  induction 1 as [l a t A | l T b1 t b2 H IH B1 B2 | l m b0 T b1 t b2 H IH B0 B1 B2 | l o L R t1 b1 b2 t2 Hl Ho H1 IH1 H2 IH2 B1 B2 G]; intros Sf.
  - apply atom_reads. exact A.
  - destruct (IH Sf) as (U & R). eapply paren_reads; eauto.
  - destruct (IH Sf) as (U & R). eapply mark_reads; eauto.
  - destruct Sf as (S1 & S2 & Sf). destruct (IH1 S1) as (U1 & R1), (IH2 S2) as (U2 & R2). exists (Node o U1 U2). apply node_reads; auto.
Qed.
End Main.
