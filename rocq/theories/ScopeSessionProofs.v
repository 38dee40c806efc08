(** Compilations one after the other refine the environments. *)
From Coq Require Import ZArith List Bool Lia PeanoNat Permutation.
From Verif Require Import ScopeModel ScopeSpec ScopeProofs ScopeStepProofs.
Import ListNotations.
Open Scope nat_scope.

(* ------------------------------------------------------------------ *)
(** * Deleting unused scopes *)

Lemma nodup_l : forall A (l r : list A), NoDup (l ++ r) -> NoDup l.
Proof.
  induction l as [|a l IH]; intros r H; [constructor|]. simpl in H. inversion H; subst.
  constructor; [|eapply IH; eauto]. intros Q. apply H2. apply in_or_app. left. exact Q.
Qed.
Lemma nodup_r : forall A (l r : list A), NoDup (l ++ r) -> NoDup r.
Proof. induction l as [|a l IH]; intros r H; [exact H|]. simpl in H. inversion H; subst. apply IH. assumption. Qed.

Lemma prune_eq : forall k f u v g c,
  prune (Sc k f u v g c) =
  Sc k f u v g (map prune (filter (fun d => negb (sc_unused d)) c)).
Proof.
  intros. cbn [prune]. f_equal. induction c as [|d t IH]; [reflexivity|].
  cbn [filter]. destruct (sc_unused d); cbn [negb map]; rewrite IH; reflexivity.
Qed.

Lemma prune_same : forall s, sc_kind (prune s) = sc_kind s /\ sc_fid (prune s) = sc_fid s /\
  sc_unused (prune s) = sc_unused s /\ sc_vars (prune s) = sc_vars s /\ sc_funs (prune s) = sc_funs s.
Proof. intros [k f u v g c]. rewrite prune_eq. repeat split; reflexivity. Qed.

Lemma prune_block : forall s, is_block (prune s) = is_block s.
Proof. intros s. unfold is_block. destruct (prune_same s) as (-> & _). reflexivity. Qed.

Lemma prune_preorder : forall s, tree_ok s -> preorder (prune s) = preorder s.
Proof.
  intros s. induction s as [k f u v g c IH] using sc_ind2. intros T.
  rewrite prune_eq, !preorder_eq. f_equal.
  apply tree_ok_eq in T. destruct T as (_ & _ & T).
  induction c as [|d c IHc]; [reflexivity|]. inversion IH; subst. inversion T; subst.
  cbn [filter flat_map]. unfold kid_ok in H3. unfold blk at 2. destruct (is_block d) eqn:B.
  - destruct H3 as (E & K & U). destruct (sc_unused d) eqn:Ud; cbn [negb].
    + destruct (U eq_refl) as [V C]. destruct d as [k0 f0 u0 v0 g0 c0]. simpl in V, C. subst.
      rewrite preorder_eq. cbn [flat_map app]. apply IHc; assumption.
    + cbn [map flat_map]. rewrite IHc by assumption. f_equal. unfold blk. rewrite prune_block, B. apply H1. exact K.
  - destruct H3 as [_ U]. rewrite U. cbn [negb map flat_map app]. rewrite IHc by assumption.
    unfold blk at 1. rewrite prune_block, B. reflexivity.
Qed.

Lemma prune_tree : forall s, tree_ok s -> tree_ok (prune s).
Proof.
  intros s. induction s as [k f u v g c IH] using sc_ind2. intros T.
  rewrite prune_eq. apply tree_ok_eq in T. destruct T as (A & B & C). apply tree_ok_eq.
  split; [exact A|]. split; [exact B|]. apply Forall_forall. intros d Hd.
  apply in_map_iff in Hd. destruct Hd as (d0 & <- & Hd0). apply filter_In in Hd0. destruct Hd0 as [Hd0 U].
  rewrite Forall_forall in C, IH. specialize (C d0 Hd0). specialize (IH d0 Hd0).
  unfold kid_ok in *. rewrite prune_block. destruct (prune_same d0) as (_ & Ef & Eu & Ev & _).
  rewrite Ef, Eu, Ev. destruct (is_block d0).
  - destruct C as (C1 & C2 & C3). split; [exact C1|]. split; [apply IH; exact C2|].
    intros Q. rewrite Q in U. discriminate.
  - exact C.
Qed.

(* ------------------------------------------------------------------ *)
(** * Closing what was left open *)

Lemma kid_facts : forall (t' p : sc), is_block t' = false ->
  own (add_kids [t'] p) = own p /\ preorder (add_kids [t'] p) = preorder p.
Proof.
  intros t' p BT. rewrite add_kids_own, add_kids_preorder. cbn [flat_map]. unfold blk. rewrite BT.
  cbn. rewrite !app_nil_r. auto.
Qed.

Lemma Renv_kid : forall pl n ds k p g f e t',
  Renv pl n ds k (p :: g) f e -> is_block t' = false -> sc_fid t' <> fs_fid f ->
  sc_unused t' = false -> Renv pl n ds k (add_kids [t'] p :: g) f e.
Proof.
  intros pl n ds k p g f e t' He BT FT UT. destruct (kid_facts t' p BT) as [OE PE].
  destruct He. constructor; auto.
  - eapply shape_hd; [|exact v_shape]. destruct p; reflexivity.
  - inversion v_blocks as [|? b1 ? bs1 Rp Rg1]; subst. constructor; [|assumption].
    destruct Rp. constructor; auto.
    + apply add_kids_tree; [assumption|]. constructor; [|constructor]. unfold kid_ok. rewrite BT.
      split; [|exact UT]. inversion v_fid; subst. congruence.
    + destruct p; assumption.
    + destruct p; assumption.
    + rewrite OE. assumption.
    + destruct p; assumption.
  - inversion v_fid; subst. constructor; [|assumption]. destruct p; assumption.
  - cbn [flat_map] in *. rewrite OE. assumption.
  - cbn [flat_map] in *. rewrite PE. assumption.
  - cbn [flat_map] in *. rewrite PE. assumption.
  - cbn [flat_map] in *. rewrite PE. assumption.
  - cbn [flat_map] in *. rewrite OE. assumption.
Qed.

Lemma collapse_group : forall bs t r st f,
  Forall (fun s => is_block s = true) (removelast (t :: bs)) -> r = last (t :: bs) t ->
  Forall tree_ok (t :: bs) -> Forall (fun s => sc_unused s = false) (t :: bs) ->
  Forall (fun s => sc_fid s = f) (t :: bs) ->
  exists u, collapse t (bs ++ st) = collapse u st /\
    sc_kind u = sc_kind r /\ sc_fid u = f /\ sc_unused u = false /\ tree_ok u /\
    sc_vars u = sc_vars r /\ sc_funs u = sc_funs r /\
    Permutation (preorder u) (flat_map preorder (t :: bs)).
Proof.
  induction bs as [|p bs IH]; intros t r st f HB Hr HT HU HF.
  - simpl in Hr. subst r. exists t. inversion HT; inversion HU; inversion HF; subst.
    cbn [app flat_map]. rewrite app_nil_r.
    repeat (split; [first [reflexivity|assumption]|]). reflexivity.
  - inversion HT as [|? ? Tt Tp]; subst. inversion Tp as [|? ? Tp' Tb]; subst.
    inversion HU as [|? ? Ut Up]; subst. inversion Up as [|? ? Up' Ub]; subst.
    inversion HF as [|? ? Ft Fp]; subst. inversion Fp as [|? ? Fp' Fb]; subst.
    assert (BT : is_block t = true) by (cbn [removelast] in HB; inversion HB; assumption).
    assert (KT : kid_ok (sc_fid p) t).
    { unfold kid_ok. rewrite BT. split; [congruence|]. split; [exact Tt|]. congruence. }
    destruct (IH (add_kids [t] p) (last (add_kids [t] p :: bs) (add_kids [t] p)) st (sc_fid t))
      as (u & E & K & F & U & T & V & G & P).
    + cbn [removelast] in HB. inversion HB as [|? ? _ HB']; subst. destruct bs as [|b' bs']; [constructor|].
      cbn [removelast] in *. inversion HB'; subst. constructor; [|assumption]. destruct p; assumption.
    + reflexivity.
    + constructor; [|exact Tb]. apply add_kids_tree; [exact Tp'|]. constructor; [exact KT|constructor].
    + constructor; [|exact Ub]. destruct p; assumption.
    + constructor; [|exact Fb]. destruct p; assumption.
    + exists u. cbn [app collapse]. split; [exact E|].
      assert (LE : sc_kind (last (add_kids [t] p :: bs) (add_kids [t] p)) = sc_kind (last (t :: p :: bs) t) /\
                   sc_vars (last (add_kids [t] p :: bs) (add_kids [t] p)) = sc_vars (last (t :: p :: bs) t) /\
                   sc_funs (last (add_kids [t] p :: bs) (add_kids [t] p)) = sc_funs (last (t :: p :: bs) t)).
      { change (last (t :: p :: bs) t) with (last (p :: bs) t). destruct bs as [|b' bs'].
        - destruct p; repeat split; reflexivity.
        - assert (forall (l : list sc) a d d', last (a :: l) d = last (a :: l) d') as LL.
          { induction l as [|a l IHl]; intros a0 d d'; [reflexivity|]. cbn [last] in *. apply IHl. }
          change (last (add_kids [t] p :: b' :: bs') (add_kids [t] p)) with (last (b' :: bs') (add_kids [t] p)).
          change (last (p :: b' :: bs') t) with (last (b' :: bs') t).
          rewrite (LL bs' b' (add_kids [t] p) t). repeat split; reflexivity. }
      destruct LE as (L1 & L2 & L3). rewrite K, V, G, L1, L2, L3.
      repeat (split; [first [reflexivity|assumption]|]).
      etransitivity; [exact P|]. cbn [flat_map]. rewrite add_kids_preorder. cbn [flat_map].
      unfold blk. rewrite BT, app_nil_r, !app_assoc. apply Permutation_app_tail. apply Permutation_app_comm.
Qed.

(** The top of the main function. *)
Record Rtop (n : nat) (ds : list decl) (m : sc) (b : list nat) : Prop := mkRtop {
  t_kind : sc_kind m = SMain;
  t_fid : sc_fid m = 0;
  t_used : sc_unused m = false;
  t_vars : map y_id (sc_vars m) = filter (is_var ds) b;
  t_funs : map y_id (sc_funs m) = filter (is_fn ds) b;
  t_syms : Forall (Rsym ds) (sc_vars m ++ sc_funs m);
  t_range : Forall (fun i => i < length ds) b;
  t_uniq : forall x i j, In i b -> In j b -> named ds x i = true -> named ds x j = true -> i = j;
  t_fids : forall y p q, In y (sc_vars m ++ sc_funs m) -> y_kind y = KFun p q -> q <> 0 /\ q < n }.

Definition env0 : senv := mkse 0 0 [[]] [] [] false [].
Definition fs0 : fstate := mkfs 0 false [] [].
Definition sc0 : sc := Sc SMain 0 false [] [] [].

Lemma last_app1 : forall A (l : list A) a d, last (l ++ [a]) d = a.
Proof. intros. apply last_last. Qed.

Lemma last_indep : forall A (l : list A) a d d', last (a :: l) d = last (a :: l) d'.
Proof. induction l as [|b l IH]; intros a d d'; [reflexivity|]. cbn [last] in *. apply IH. Qed.

Lemma shape_last : forall k t g,
  (exists bs u, t :: g = bs ++ [u] /\ Forall (fun s => is_block s = true) bs /\ sc_kind u = k) ->
  Forall (fun s => is_block s = true) (removelast (t :: g)) /\ sc_kind (last (t :: g) t) = k.
Proof.
  intros k t g (bs & u & E & H & K). rewrite E, removelast_last, last_last. auto.
Qed.

Lemma Forall2_last : forall A B (P : A -> B -> Prop) l l' a b,
  Forall2 P l l' -> l <> [] -> P (last l a) (last l' b).
Proof.
  intros A B P l l' a b H. induction H as [|x y l l' Hxy Hl IH]; intros N; [congruence|].
  destruct l as [|x' l]; inversion Hl; subst; [exact Hxy|]. apply IH. discriminate.
Qed.

Lemma collapse_main : forall fs pl n ds t r es,
  Rst pl n ds (t :: r) fs es ->
  let f := last fs fs0 in let e := last es env0 in let top := last (n_blocks e) [] in
  let m := collapse t r in
  Fin pl f m (filter (is_var ds) top) (n_acc e) /\ Rtop n ds m top /\
  n_vars e = fs_locals f /\
  sc_vars m = sc_vars (last (t :: r) sc0) /\ sc_funs m = sc_funs (last (t :: r) sc0) /\
  (r = [] <-> exists e1, es = [e1] /\ exists b1, n_blocks e1 = [b1]).
Proof.
  induction fs as [|f fs IH]; intros pl n ds t r es H; [inversion H|].
  cbv zeta. inversion H as [g f0 e0 He B F0 | k g f0 e0 st0 f' fs1 es1 He K B N Hr EQ]; subst.
  - (* main function only *)
    cbn [last]. pose proof (v_blocks _ _ _ _ _ _ _ He) as HB.
    destruct (shape_last _ _ _ (v_shape _ _ _ _ _ _ _ He)) as [SH SK].
    assert (TT : Forall tree_ok (t :: r) /\ Forall (fun s => sc_unused s = false) (t :: r)).
    { split; apply Forall_forall; intros s Hs; destruct (Forall2_In _ _ _ _ _ _ HB Hs) as (b & _ & Q); apply Q. }
    destruct TT as [TT TU].
    destruct (collapse_group r t (last (t :: r) t) [] 0 SH eq_refl TT TU) as (u & E & Ku & Fu & Uu & Tu & Vu & Gu & Pu).
    { pose proof (v_fid _ _ _ _ _ _ _ He) as Q. rewrite F0 in Q. exact Q. }
    rewrite app_nil_r in E. cbn [collapse] in E. rewrite E.
    rewrite (last_indep _ r t t sc0) in *.
    assert (Rl : Rsc ds (last (t :: r) sc0) (last (n_blocks e0) [])) by (apply Forall2_last; [exact HB|discriminate]).
    destruct (v_shape _ _ _ _ _ _ _ He) as (bs & rt & Eg & Hbs & Hrt).
    assert (LI : In (last (t :: r) sc0) (t :: r)) by (rewrite Eg, last_last; apply in_or_app; right; left; reflexivity).
    split; [|split; [|split; [|split; [exact Vu|split; [exact Gu|]]]]].
    + constructor.
      * exact Tu.
      * rewrite Vu. apply Rl.
      * intros y Hy. apply (v_slot _ _ _ _ _ _ _ He). eapply Permutation_in; [exact Pu|exact Hy].
      * intros i. rewrite (v_cover _ _ _ _ _ _ _ He). apply Permutation_ids. symmetry. exact Pu.
      * rewrite (v_len _ _ _ _ _ _ _ He). symmetry. apply Permutation_length. exact Pu.
      * apply He.
      * apply He.
      * apply He.
    + constructor.
      * congruence.
      * exact Fu.
      * exact Uu.
      * rewrite Vu. apply Rl.
      * rewrite Gu. apply Rl.
      * rewrite Vu, Gu. pose proof (r_own _ _ _ Rl) as O. rewrite Forall_forall in *.
        intros y Hy. apply O. apply direct_own. exact Hy.
      * apply Rl.
      * apply Rl.
      * rewrite Vu, Gu. intros y p q Hy Ky. rewrite <- F0. eapply (v_funs _ _ _ _ _ _ _ He); [|exact Ky].
        apply in_flat_map. exists (last (t :: r) sc0). split; [exact LI|]. apply direct_own. exact Hy.
    + apply He.
    + split.
      * intros ->. exists e0. split; [reflexivity|]. inversion HB as [|? b ? l Q1 Q2]; subst. inversion Q2; subst. eauto.
      * intros (e1 & Q & b1 & Qb). inversion Q; subst e1. rewrite Qb in HB. inversion HB as [|? ? ? ? ? Q2]; subst.
        inversion Q2. reflexivity.
  - (* a function is open *)
    pose proof (group_nonempty _ _ _ _ _ _ _ He) as G. destruct g as [|t0 g]; [congruence|].
    simpl in EQ. inversion EQ; subst t0 r.
    pose proof (v_blocks _ _ _ _ _ _ _ He) as HB.
    destruct (shape_last _ _ _ (v_shape _ _ _ _ _ _ _ He)) as [SH SK].
    assert (TT : Forall tree_ok (t :: g) /\ Forall (fun s => sc_unused s = false) (t :: g)).
    { split; apply Forall_forall; intros s Hs; destruct (Forall2_In _ _ _ _ _ _ HB Hs) as (b & _ & Q); apply Q. }
    destruct TT as [TT TU].
    destruct (collapse_group g t (last (t :: g) t) st0 (fs_fid f) SH eq_refl TT TU (v_fid _ _ _ _ _ _ _ He))
      as (u & E & Ku & Fu & Uu & Tu & Vu & Gu & Pu).
    rewrite E.
    destruct (Rst_open _ _ _ _ _ _ Hr)
      as (k1 & p & g1 & st1 & f1 & fs2 & e1 & es2 & E1 & E2 & E3 & He1 & _ & _ & Hcl).
    inversion E2; subst f1 fs2. subst st0 es1. cbn [collapse].
    assert (BU : is_block u = false).
    { unfold is_block. rewrite Ku, SK. pose proof (v_kind _ _ _ _ _ _ _ He). destruct k; congruence. }
    assert (Hr' : Rst pl n ds (add_kids [u] p :: g1 ++ st1) (f' :: fs1) (e1 :: es2)).
    { change (add_kids [u] p :: g1 ++ st1) with ((add_kids [u] p :: g1) ++ st1). apply Hcl; auto.
      - apply Renv_kid; auto. congruence.
      - apply ext_refl.
      - pose proof (Rst_syms _ _ _ _ _ _ Hr) as SY. change (p :: g1 ++ st1) with ((p :: g1) ++ st1) in SY.
        rewrite flat_map_app in SY. apply Forall_app in SY. apply SY. }
    specialize (IH pl n ds _ _ _ Hr'). cbv zeta in IH.
    change (last (f :: f' :: fs1) fs0) with (last (f' :: fs1) fs0).
    change (last (e0 :: e1 :: es2) env0) with (last (e1 :: es2) env0).
    destruct IH as (I1 & I2 & I3 & I4 & I5 & I6).
    split; [exact I1|]. split; [exact I2|]. split; [exact I3|].
    assert (LE : sc_vars (last (add_kids [u] p :: g1 ++ st1) sc0) = sc_vars (last (t :: g ++ p :: g1 ++ st1) sc0) /\
                 sc_funs (last (add_kids [u] p :: g1 ++ st1) sc0) = sc_funs (last (t :: g ++ p :: g1 ++ st1) sc0)).
    { assert (LA : forall (l : list sc) a b d, last (l ++ a :: b) d = last (a :: b) d).
      { induction l as [|x l IHl]; intros a b d; [reflexivity|]. cbn [app]. rewrite <- (IHl a b d).
        destruct (l ++ a :: b) eqn:Q; [destruct l; discriminate|]. reflexivity. }
      change (t :: g ++ p :: g1 ++ st1) with ((t :: g) ++ p :: g1 ++ st1). rewrite LA.
      destruct (g1 ++ st1) as [|x l].
      - destruct p; split; reflexivity.
      - split; reflexivity. }
    destruct LE as [L1 L2]. split; [exact (eq_trans I4 L1)|]. split; [exact (eq_trans I5 L2)|].
    split.
    + intros Q. destruct g; discriminate.
    + intros (e2 & Q & _). discriminate.
Qed.

(* ------------------------------------------------------------------ *)
(** * The engine between two scripts *)

Record RE (e : engine) (w : world) : Prop := mkRE {
  E_next : e_next e = length (w_decls w);
  E_nfun : e_nfun e = w_nfun w;
  E_pos : 0 < e_nfun e;
  E_top : Rtop (e_nfun e) (w_decls w) (e_main e) (w_top w);
  E_tree : tree_ok (e_main e);
  E_slots : map slot (preorder (e_main e)) = seq 0 (length (preorder (e_main e)));
  E_locals : e_locals e = map y_id (preorder (e_main e));
  E_uniq : NoDup (map y_id (sc_vars (e_main e) ++ sc_funs (e_main e)));
  E_done : Forall2 (Rfn (w_plain w)) (e_funs e) (w_done w);
  E_main : w_plain w = true -> length (o_vars (w_main w)) <= 256 ->
           faithful (mkfunc (e_locals e) (e_code e)) (w_main w) }.

Lemma RE_fresh : RE fresh first_world.
Proof.
  constructor; cbn; auto.
  - constructor; cbn; auto.
    + intros x i j [].
    + intros y p q [].
  - constructor.
  - intros _ _. unfold faithful. cbn. repeat split; auto; try constructor. exists []. reflexivity.
Qed.

Lemma no_blocks : forall A (f : sc -> list A) l, Forall (fun d => is_block d = false) l -> flat_map (blk f) l = [].
Proof.
  intros A f l H. induction H; [reflexivity|]. cbn [flat_map]. unfold blk at 1. rewrite H. exact IHForall.
Qed.

Lemma count_other : forall id s, sc_fid s <> id -> count_vars id s = 0.
Proof. intros id [k f u v g c] H. rewrite count_vars_eq. simpl in H. apply Nat.eqb_neq in H. rewrite H. reflexivity. Qed.

Lemma begin_R : forall e w, RE e w -> R (begin e) (spec_begin w).
Proof.
  intros e w H. unfold begin, spec_begin. destruct (e_main e) as [k f u v g c] eqn:Em.
  pose proof (E_top _ _ H) as T. rewrite Em in T. pose proof (E_tree _ _ H) as TO. rewrite Em in TO.
  pose proof (t_kind _ _ _ _ T) as Tk. pose proof (t_fid _ _ _ _ T) as Tf. pose proof (t_used _ _ _ _ T) as Tu.
  simpl in Tk, Tf, Tu. subst k f u. cbn [drop_blocks]. rewrite prune_eq.
  set (c' := map prune (filter (fun d => negb (sc_unused d)) (filter (fun d => negb (is_block d)) c))).
  apply tree_ok_eq in TO. destruct TO as (TO1 & TO2 & TO3).
  assert (KO : Forall (kid_ok 0) c' /\ Forall (fun d => is_block d = false) c').
  { split; apply Forall_forall; intros d Hd; unfold c' in Hd; apply in_map_iff in Hd;
      destruct Hd as (d0 & <- & Hd0); apply filter_In in Hd0; destruct Hd0 as [Hd0 Hu];
      apply filter_In in Hd0; destruct Hd0 as [Hd0 Hb]; apply negb_true_iff in Hb.
    - rewrite Forall_forall in TO3. specialize (TO3 d0 Hd0). unfold kid_ok in *. rewrite prune_block, Hb in *.
      destruct (prune_same d0) as (_ & Ef & Eu & _). rewrite Ef, Eu. exact TO3.
    - rewrite prune_block. exact Hb. }
  destruct KO as [KO NB].
  assert (CV : count_vars 0 (Sc SMain 0 false v g c') = length v).
  { rewrite count_vars_eq, Nat.eqb_refl. rewrite <- (Nat.add_0_r (length v)) at 2. f_equal.
    clear - KO NB. induction c' as [|d l IH]; [reflexivity|]. inversion KO; inversion NB; subst.
    cbn [map list_sum fold_right]. change (fold_right Nat.add 0 (map (count_vars 0) l)) with (list_sum (map (count_vars 0) l)).
    rewrite IH by assumption. unfold kid_ok in H1. rewrite H5 in H1. rewrite count_other by apply H1. reflexivity. }
  rewrite CV.
  assert (PM : preorder (Sc SMain 0 false v g c') = v) by (rewrite preorder_eq, no_blocks, app_nil_r by exact NB; reflexivity).
  assert (OM : own (Sc SMain 0 false v g c') = v ++ g) by (rewrite own_eq, no_blocks, app_nil_r by exact NB; reflexivity).
  assert (LV : firstn (length v) (e_locals e) = map y_id v).
  { rewrite (E_locals _ _ H), Em, preorder_eq, map_app, firstn_app, map_length, Nat.sub_diag. cbn [firstn].
    rewrite app_nil_r. rewrite <- (map_length y_id v). apply firstn_all. }
  rewrite LV.
  assert (SV : map slot v = seq 0 (length v)).
  { pose proof (E_slots _ _ H) as S. rewrite Em, preorder_eq, map_app, app_length, seq_app in S.
    assert (X : forall (a b c d : list nat), length a = length c -> a ++ b = c ++ d -> a = c).
    { induction a as [|x a IH]; intros b0 [|y c0] d L Q; simpl in *; try discriminate; [reflexivity|].
      inversion Q; subst. f_equal. eapply IH; eauto. }
    eapply X; [|exact S]. rewrite map_length, seq_length. reflexivity. }
  destruct T. cbn [sc_kind sc_fid sc_unused sc_vars sc_funs] in *.
  constructor; cbn [c_next c_nfun c_stack c_fs c_funs z_decls z_nfun z_env z_plain z_done].
  - apply H.
  - apply H.
  - apply Rst_main; [|reflexivity|reflexivity].
    constructor; cbn [fs_fid fs_this fs_locals fs_code n_no n_base n_blocks n_seen n_vars n_this n_acc flat_map];
      rewrite ?app_nil_r, ?PM, ?OM.
    + exists [], (Sc SMain 0 false v g c'). repeat split; constructor.
    + discriminate.
    + constructor; [|constructor]. constructor; cbn [sc_vars sc_funs sc_unused]; auto.
      * apply tree_ok_eq. auto.
      * rewrite OM. exact t_syms0.
    + repeat constructor.
    + reflexivity.
    + apply H.
    + intros i. rewrite map_app, t_vars0, t_funs0, in_app_iff, !filter_In. split.
      * intros Hi. rewrite Forall_forall in t_range0. destruct (var_or_fn _ _ (t_range0 i Hi)); auto.
      * tauto.
    + symmetry. exact t_vars0.
    + intros y Hy. apply In_nth_error in Hy. destruct Hy as (j & Hj).
      assert (slot y = j).
      { assert (Q : nth_error (map slot v) j = Some (slot y)) by (apply map_nth_error; exact Hj).
        rewrite SV in Q. apply nth_error_nth with (d := 0) in Q. rewrite seq_nth in Q; [lia|].
        apply nth_error_Some. congruence. }
      subst j. apply map_nth_error. exact Hj.
    + intros i. tauto.
    + apply map_length.
    + pose proof (E_uniq _ _ H) as U. rewrite Em in U. cbn [sc_vars sc_funs] in U. rewrite map_app in U.
      apply nodup_l in U. exact U.
    + reflexivity.
    + constructor.
    + exact t_fids0.
    + intros _. constructor.
  - cbn [flat_map]. rewrite OM, app_nil_r. pose proof (E_uniq _ _ H) as U. rewrite Em in U. exact U.
  - apply H.
Qed.

Lemma Fin_prune : forall pl f m vs acc, Fin pl f m vs acc -> Fin pl f (prune m) vs acc.
Proof.
  intros pl f m vs acc H. pose proof (prune_preorder m (f_tree _ _ _ _ _ H)) as P.
  destruct (prune_same m) as (_ & _ & _ & V & _).
  destruct H. constructor; rewrite ?P, ?V; auto. apply prune_tree. assumption.
Qed.

Lemma Rtop_prune : forall n ds m b, Rtop n ds m b -> Rtop n ds (prune m) b.
Proof.
  intros n ds m b H. destruct (prune_same m) as (K & F & U & V & G).
  destruct H. constructor; rewrite ?K, ?F, ?U, ?V, ?G; auto.
Qed.

Lemma Rtop_same : forall n ds m m' b, tree_ok m -> same_but_slots m m' -> Rtop n ds m b ->
  Rtop n ds m' b /\ tree_ok m' /\ map y_id (sc_vars m' ++ sc_funs m') = map y_id (sc_vars m ++ sc_funs m).
Proof.
  intros n ds m m' b T [->|(mp & ->)] H; [auto|].
  pose proof (move_tree mp m T) as T'.
  split; [|split; [exact T'|]].
  - destruct H. destruct m as [k f u v g c]. apply tree_ok_eq in T. destruct T as (T1 & _).
    rewrite Forall_forall in T1. rewrite move_sc_eq. constructor; cbn [sc_kind sc_fid sc_unused sc_vars sc_funs] in *; auto.
    + rewrite map_map. rewrite <- t_vars0. apply map_ext. intros. apply move_sym_id.
    + apply Forall_app in t_syms0. destruct t_syms0 as [A B]. apply Forall_app. split; [|exact B].
      apply Forall_forall. intros y Hy. apply in_map_iff in Hy. destruct Hy as (y0 & <- & Hy0).
      unfold Rsym. rewrite move_sym_id, move_sym_decl by auto. rewrite Forall_forall in A. apply A. exact Hy0.
    + intros y p q Hy Ky. apply in_app_or in Hy. destruct Hy as [Hy|Hy].
      * apply in_map_iff in Hy. destruct Hy as (y0 & <- & Hy0).
        pose proof (move_sym_var mp y0 (T1 y0 Hy0)) as Q. unfold is_fun in Q. rewrite Ky in Q. discriminate.
      * eapply t_fids0; [|exact Ky]. apply in_or_app. right. exact Hy.
  - destruct m as [k f u v g c]. rewrite move_sc_eq. cbn [sc_vars sc_funs]. rewrite !map_app, map_map.
    f_equal. apply map_ext. intros. apply move_sym_id.
Qed.

Lemma nodup_part : forall (l : list sc) s, NoDup (map y_id (flat_map own l)) -> In s l ->
  NoDup (map y_id (sc_vars s ++ sc_funs s)).
Proof.
  intros l s H Hs. apply in_split in Hs. destruct Hs as (a & b & ->).
  rewrite flat_map_app, map_app in H. cbn [flat_map] in H. rewrite map_app in H.
  apply nodup_r in H. apply nodup_l in H.
  destruct s as [k f u v g c]. rewrite own_eq, map_app in H. apply nodup_l in H. exact H.
Qed.

Lemma last_In : forall (r : list sc) t d, In (last (t :: r) d) (t :: r).
Proof.
  induction r as [|a r IH]; intros t d; [left; reflexivity|]. right.
  change (last (t :: a :: r) d) with (last (a :: r) d). apply IH.
Qed.

Section Sessions.
Variable ty : name -> bool.

Lemma begin_pos : forall e w, RE e w -> 0 < c_nfun (begin e).
Proof. intros e w H. unfold begin. destruct (drop_blocks (e_main e)). cbn. apply H. Qed.

Lemma R_pos : forall s z, R s z -> 0 < c_nfun s.
Proof.
  intros s z H. destruct (Rst_open _ _ _ _ _ _ (R_st _ _ H))
    as (k & t & g & st' & f & fs' & e & es' & _ & _ & _ & He & _).
  pose proof (v_lt _ _ _ _ _ _ _ He). lia.
Qed.

Theorem compile_refines : forall l e w,
  RE e w ->
  match compile ty l e with
  | (e', CDone) => snd (spec_compile ty l w) = true /\ RE e' (fst (spec_compile ty l w))
  | (e', CError) => snd (spec_compile ty l w) = false /\ RE e' (fst (spec_compile ty l w))
  | (_, CUndef) => w_plain (fst (spec_compile ty l w)) = false
  end.
Proof.
  intros l e w H. unfold compile, spec_compile.
  pose proof (run_refines ty l _ _ (begin_R e w H)) as RR.
  destruct (run ty l (begin e)) as [s st]. destruct (spec_run ty l (spec_begin w)) as [z b].
  assert (C : R s z /\ (st = Go /\ b = true \/ st = Fail /\ b = false) ->
    match
      match c_stack s with
      | t :: r =>
        let m := prune (collapse t r) in
        match finalize (last (c_fs s) (mkfs 0 false [] [])) m with
        | POk fn m' =>
          (mkeng m' (fn_locals fn) (fn_code fn) (c_next s) (c_nfun s) (c_funs s)
             (map prune (c_orphans s)),
           match st, r with Go, [] => CDone | _, _ => CError end)
        | PErr => (e, CError)
        | PUndef => (e, CUndef)
        end
      | [] => (e, CError)
      end with
    | (e', CDone) => snd (let e := last (z_env z) (mkse 0 0 [[]] [] [] false []) in
         let top := last (n_blocks e) [] in
         (mkw (z_decls z) top
            (mksf (filter (is_var (z_decls z)) top) (n_vars e) (n_acc e))
            (z_nfun z) (z_done z) (z_plain z) (z_keep z),
          match z_env z with
          | [_] => match n_blocks e with [_] => b | _ => false end
          | _ => false
          end)) = true /\ RE e' (fst (let e := last (z_env z) (mkse 0 0 [[]] [] [] false []) in
         let top := last (n_blocks e) [] in
         (mkw (z_decls z) top
            (mksf (filter (is_var (z_decls z)) top) (n_vars e) (n_acc e))
            (z_nfun z) (z_done z) (z_plain z) (z_keep z),
          match z_env z with
          | [_] => match n_blocks e with [_] => b | _ => false end
          | _ => false
          end)))
    | (e', CError) => snd (let e := last (z_env z) (mkse 0 0 [[]] [] [] false []) in
         let top := last (n_blocks e) [] in
         (mkw (z_decls z) top
            (mksf (filter (is_var (z_decls z)) top) (n_vars e) (n_acc e))
            (z_nfun z) (z_done z) (z_plain z) (z_keep z),
          match z_env z with
          | [_] => match n_blocks e with [_] => b | _ => false end
          | _ => false
          end)) = false /\ RE e' (fst (let e := last (z_env z) (mkse 0 0 [[]] [] [] false []) in
         let top := last (n_blocks e) [] in
         (mkw (z_decls z) top
            (mksf (filter (is_var (z_decls z)) top) (n_vars e) (n_acc e))
            (z_nfun z) (z_done z) (z_plain z) (z_keep z),
          match z_env z with
          | [_] => match n_blocks e with [_] => b | _ => false end
          | _ => false
          end)))
    | (_, CUndef) => z_plain z = false
    end).
  { intros [HR Hst]. cbv zeta.
    destruct (c_stack s) as [|t r] eqn:Et.
    { destruct (Rst_open _ _ _ _ _ _ (R_st _ _ HR)) as (k & t & g & st' & _ & _ & _ & _ & Q & _). congruence. }
    pose proof (R_st _ _ HR) as S. rewrite Et in S.
    pose proof (collapse_main _ _ _ _ _ _ _ S) as CM. cbv zeta in CM.
    destruct CM as (F & T & NV & SV & SG & RN). fold fs0. fold env0.
    pose proof (finalize_ok _ _ _ _ _ (Fin_prune _ _ _ _ _ F)) as FO.
    destruct (finalize (last (c_fs s) fs0) (prune (collapse t r))) as [fn m'| |]; [|contradiction|exact FO].
    destruct FO as (FA & SB & FL & FS).
    destruct (Rtop_same _ _ _ _ _ (prune_tree _ (f_tree _ _ _ _ _ F)) SB (Rtop_prune _ _ _ _ T)) as (T' & TR' & ID).
    assert (HE : RE (mkeng m' (fn_locals fn) (fn_code fn) (c_next s) (c_nfun s) (c_funs s) (map prune (c_orphans s)))
      (mkw (z_decls z) (last (n_blocks (last (z_env z) env0)) [])
            (mksf (filter (is_var (z_decls z)) (last (n_blocks (last (z_env z) env0)) []))
               (n_vars (last (z_env z) env0)) (n_acc (last (z_env z) env0)))
            (z_nfun z) (z_done z) (z_plain z) (z_keep z))).
    { constructor; cbn [e_main e_locals e_code e_next e_nfun e_funs w_decls w_top w_main w_nfun w_done w_plain w_keep].
      - apply HR.
      - apply HR.
      - eapply R_pos; eauto.
      - exact T'.
      - exact TR'.
      - exact FS.
      - exact FL.
      - rewrite ID. destruct (prune_same (collapse t r)) as (_ & _ & _ & Pv & Pf). rewrite Pv, Pf, SV, SG.
        pose proof (R_uniq _ _ HR) as U. rewrite Et in U. eapply nodup_part; [exact U|]. apply last_In.
      - apply HR.
      - intros P L. rewrite NV in *. destruct fn. apply FA; assumption. }
    assert (SN : (match z_env z with
          | [_] => match n_blocks (last (z_env z) env0) with [_] => b | _ => false end
          | _ => false
          end) = match r with [] => b | _ => false end).
    { destruct r as [|p r].
      - destruct RN as [RN _]. destruct (RN eq_refl) as (e1 & Q1 & b1 & Q2). rewrite Q1. cbn [last]. rewrite Q2. reflexivity.
      - destruct RN as [_ RN]. destruct (z_env z) as [|e1 [|e2 es]] eqn:Q; try reflexivity.
        cbn [last]. destruct (n_blocks e1) as [|b1 [|b2 bs]] eqn:Qb; try reflexivity.
        assert (p :: r = []) by (apply RN; eauto). discriminate. }
    rewrite SN. cbn [fst snd].
    destruct Hst as [[-> ->]|[-> ->]]; destruct r; (split; [reflexivity|exact HE]). }
  destruct st.
  - apply C. cbn [fst snd] in RR. destruct RR as [-> RR]. auto.
  - apply C. cbn [fst snd] in RR. destruct RR as [-> RR]. auto.
  - exact RR.
Qed.

Lemma plain_compile : forall l w, w_plain w = false -> w_plain (fst (spec_compile ty l w)) = false.
Proof.
  intros l w H. unfold spec_compile. pose proof (plain_run ty l (spec_begin w) H) as Q.
  destruct (spec_run ty l (spec_begin w)) as [z b]. exact Q.
Qed.
Lemma plain_session : forall ls w, w_plain w = false -> w_plain (fst (spec_session ty ls w)) = false.
Proof.
  induction ls as [|l ls IH]; intros w H; [exact H|]. cbn [spec_session].
  pose proof (plain_compile l w H) as Q. destruct (spec_compile ty l w) as [w' b]. cbn [fst] in Q.
  specialize (IH w' Q). destruct (spec_session ty ls w'). exact IH.
Qed.

Definition verdict (b : bool) : cres := if b then CDone else CError.

Theorem session_refines : forall ls e w,
  RE e w ->
  (~ In CUndef (snd (session ty ls e)) ->
   snd (session ty ls e) = map verdict (snd (spec_session ty ls w)) /\
   RE (fst (session ty ls e)) (fst (spec_session ty ls w))) /\
  (w_plain (fst (spec_session ty ls w)) = true -> ~ In CUndef (snd (session ty ls e))).
Proof.
  induction ls as [|l ls IH]; intros e w H; [cbn; auto|].
  cbn [session spec_session]. pose proof (compile_refines l e w H) as C.
  destruct (compile ty l e) as [e1 c]. destruct (spec_compile ty l w) as [w1 b]. cbn [fst snd] in C.
  assert (G : RE e1 w1 -> c = verdict b ->
    (~ In CUndef (snd (let (e'', cs) := session ty ls e1 in (e'', c :: cs))) ->
     snd (let (e'', cs) := session ty ls e1 in (e'', c :: cs)) =
     map verdict (snd (let (w'', bs) := spec_session ty ls w1 in (w'', b :: bs))) /\
     RE (fst (let (e'', cs) := session ty ls e1 in (e'', c :: cs)))
        (fst (let (w'', bs) := spec_session ty ls w1 in (w'', b :: bs)))) /\
    (w_plain (fst (let (w'', bs) := spec_session ty ls w1 in (w'', b :: bs))) = true ->
     ~ In CUndef (snd (let (e'', cs) := session ty ls e1 in (e'', c :: cs))))).
  { intros HE Hc. destruct (IH e1 w1 HE) as [I1 I2].
    destruct (session ty ls e1) as [e2 cs]. destruct (spec_session ty ls w1) as [w2 bs]. cbn [fst snd] in *.
    assert (NC : c <> CUndef) by (subst c; destruct b; discriminate).
    split.
    - intros N. destruct I1 as [A B]; [intros Q; apply N; right; exact Q|]. split; [|exact B].
      cbn [map]. congruence.
    - intros P [Q|Q]; [congruence|]. exact (I2 P Q). }
  destruct c.
  - destruct C as [-> C]. apply G; auto.
  - destruct C as [-> C]. apply G; auto.
  - pose proof (plain_session ls w1 C) as P.
    destruct (session ty ls e1) as [e2 cs]. destruct (spec_session ty ls w1) as [w2 bs]. cbn [fst snd] in *.
    split.
    + intros N. exfalso. apply N. left. reflexivity.
    + intros Q. congruence.
Qed.
End Sessions.
