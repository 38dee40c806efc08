(** Every step of the compiler refines the step of the environments. *)
From Coq Require Import ZArith List Bool Lia PeanoNat Permutation.
From Verif Require Import ScopeModel ScopeSpec ScopeProofs.
Import ListNotations.
Open Scope nat_scope.

(* ------------------------------------------------------------------ *)
(** * Emitting code *)

Lemma accesses_app : forall a b, accesses (a ++ b) = accesses a ++ accesses b.
Proof. intros. unfold accesses. apply flat_map_app. Qed.

Lemma R_emit : forall s z l vs b f fs,
  R s z -> c_fs s = f :: fs ->
  Forall2 (agrees (fs_locals f)) (accesses l) vs ->
  (b = true -> Forall plain_instr l) ->
  R (emit l s) (and_plain b (use vs z)).
Proof.
  intros s z l vs b f fs HR Ef Ha Hp.
  destruct (Rst_open _ _ _ _ _ _ (R_st _ _ HR))
    as (k & t & g & st' & f0 & fs' & e & es' & E1 & E2 & E3 & He & _ & _ & Hcl).
  rewrite Ef in E2. inversion E2; subst f0 fs'. clear E2.
  unfold emit, use, and_plain. rewrite Ef, E3.
  constructor; cbn [c_next c_nfun c_stack c_fs c_funs z_decls z_nfun z_env z_plain z_done].
  - apply HR.
  - apply HR.
  - rewrite E1. change (t :: g ++ st') with ((t :: g) ++ st'). apply Hcl; auto.
    + destruct He. constructor; cbn [fs_fid fs_this fs_locals fs_code
        n_no n_base n_blocks n_seen n_vars n_this n_acc]; auto.
      * rewrite accesses_app. apply Forall2_app; assumption.
      * intros Q. apply andb_true_iff in Q. destruct Q as [Q1 Q2]. apply Forall_app. auto.
    + apply ext_refl.
    + intros Q. apply andb_true_iff in Q. apply Q.
    + pose proof (Rst_syms _ _ _ _ _ _ (R_st _ _ HR)) as S. rewrite E1 in S.
      change (t :: g ++ st') with ((t :: g) ++ st') in S. rewrite flat_map_app in S.
      apply Forall_app in S. apply S.
  - apply HR.
  - eapply Rfns_pl; [apply HR|]. intros Q. apply andb_true_iff in Q. apply Q.
Qed.

Lemma and_plain_true : forall z, and_plain true z = z.
Proof. intros []. unfold and_plain. cbn. rewrite andb_true_r. reflexivity. Qed.
Lemma and_keep_true : forall z, and_keep true z = z.
Proof. intros []. unfold and_keep. cbn. rewrite andb_true_r. reflexivity. Qed.

Section Steps.
Variable ty : name -> bool.

Definition not_this (i : instr) : Prop := match i with LoadThis _ => False | _ => True end.
Definition load_like (i : instr) : Prop :=
  match i with
  | LoadLocal _ | LoadFunction _ | FindVariable _ | LoadType _ | LoadThis _ => True
  | _ => False
  end.

Lemma load_ok : forall s z x f fs,
  R s z -> c_fs s = f :: fs ->
  match load_sym ty x s, meaning ty x z with
  | Some i, Some v => Forall2 (agrees (fs_locals f)) (acc1 i) [v] /\ not_this i /\ load_like i
  | None, None => True
  | _, _ => False
  end.
Proof.
  intros s z x f fs HR Ef. unfold load_sym, meaning. destruct (ty x).
  - repeat constructor.
  - destruct (Rst_hd _ _ _ _ _ _ (R_st _ _ HR))
      as (k & g & st' & f0 & fs' & e & es' & E1 & E2 & E3 & He & Hn & Hes & _).
    rewrite Ef in E2. inversion E2; subst f0 fs'. rewrite E3, E1, Ef.
    pose proof (down_group (z_decls z) x (fs_fid f) g (n_blocks e) st'
      (v_blocks _ _ _ _ _ _ _ He) (group_nonempty _ _ _ _ _ _ _ He) (v_fid _ _ _ _ _ _ _ He) Hn) as D.
    destruct (down x None (g ++ st')) as [y|].
    + destruct D as (V & Ry & t & Ht & Hy). rewrite V.
      rewrite (sym_is_fn _ _ Ry). unfold is_fun. destruct (y_kind y) as [n|p q] eqn:K.
      * split; [|repeat constructor]. constructor; [|constructor]. simpl.
        replace n with (slot y) by (unfold slot; rewrite K; reflexivity).
        apply (v_slot _ _ _ _ _ _ _ He). apply in_flat_map. exists t. split; [exact Ht|].
        apply in_app_or in Hy. destruct t as [tk tf tu tv tg tc]. rewrite preorder_eq.
        apply in_or_app. left. simpl in Hy. destruct Hy as [Hy|Hy]; [exact Hy|].
        destruct (Forall2_In _ _ _ _ _ _ (v_blocks _ _ _ _ _ _ _ He) Ht) as (b & _ & Rb).
        pose proof (r_tree _ _ _ Rb) as T. apply tree_ok_eq in T. destruct T as (_ & T & _).
        rewrite Forall_forall in T. specialize (T y Hy). unfold is_fun in T. rewrite K in T. discriminate.
      * repeat constructor.
    + rewrite D. destruct fs as [|f' fs].
      * destruct Hes as [Hes _]. rewrite (Hes eq_refl). exact I.
      * destruct es' as [|e' es'].
        -- destruct Hes as [_ Hes]. specialize (Hes eq_refl). discriminate.
        -- repeat constructor.
Qed.

Lemma load_rand_ok : forall s z a f fs,
  R s z -> c_fs s = f :: fs ->
  match load_rand ty a s, meaning_rand ty a z with
  | Some i, Some v => Forall2 (agrees (fs_locals f)) (acc1 i) [v] /\ load_like i /\
       (match a with RVar _ => not_this i | RThis k => i = LoadThis k end)
  | None, None => True
  | _, _ => False
  end.
Proof.
  intros s z [x|k] f fs HR Ef.
  - cbn [load_rand meaning_rand]. pose proof (load_ok s z x f fs HR Ef) as L.
    destruct (load_sym ty x s), (meaning ty x z); auto. tauto.
  - cbn [load_rand meaning_rand]. rewrite Ef.
    destruct (Rst_open _ _ _ _ _ _ (R_st _ _ HR))
      as (kk & t & g & st' & f0 & fs' & e & es' & E1 & E2 & E3 & He & _).
    rewrite Ef in E2. inversion E2; subst. rewrite E3, (v_this _ _ _ _ _ _ _ He).
    destruct (n_this e); [|exact I]. repeat constructor.
Qed.

Lemma bin_ok : forall L i j v w,
  Forall2 (agrees L) (acc1 i) [v] -> Forall2 (agrees L) (acc1 j) [w] ->
  load_like i -> load_like j ->
  Forall2 (agrees L) (accesses (bin_code i j)) [v; w].
Proof.
  intros L i j v w Hi Hj Li Lj.
  assert (B : Forall2 (agrees L) (acc1 i ++ acc1 j) [v; w])
    by (change [v; w] with ([v] ++ [w]); apply Forall2_app; assumption).
  assert (A : forall i a, as_register i = Some a -> acc1 i = [acc_arg a]).
  { intros i0 a0 E. destruct i0; simpl in E; try discriminate;
      match type of E with (if ?c then _ else _) = _ => destruct c end; inversion E; reflexivity. }
  unfold bin_code. destruct (as_register i) as [a|] eqn:Ei; destruct (as_register j) as [b|] eqn:Ej;
    rewrite ?(A _ _ Ei), ?(A _ _ Ej) in B; cbn [accesses flat_map acc1 app];
    rewrite ?app_nil_r, ?(A _ _ Ei); exact B.
Qed.

Lemma load_plain : forall i, load_like i -> plain_instr i.
Proof. intros [] H; simpl in *; try contradiction; exact I. Qed.

Lemma bin_plain : forall i j,
  load_like i -> load_like j -> ((not_this i /\ not_this j) \/ (~ not_this i /\ ~ not_this j)) ->
  Forall plain_instr (bin_code i j).
Proof.
  intros i j Li Lj H. unfold bin_code.
  destruct i; simpl in Li; try contradiction; destruct j; simpl in Lj; try contradiction;
    simpl in H; try tauto; cbn [as_register];
    repeat match goal with |- context [Nat.ltb ?a ?b] => destruct (Nat.ltb a b) end;
    repeat constructor.
Qed.

(* ------------------------------------------------------------------ *)
(** * Declaring functions *)

Definition setd (i np : nat) (ds : list decl) : list decl :=
  match nth_error ds i with
  | Some (mkd n (Some (_, f))) => firstn i ds ++ mkd n (Some (np, f)) :: skipn (S i) ds
  | _ => ds
  end.

Lemma setd_nth : forall i np ds n m f j,
  nth_error ds i = Some (mkd n (Some (m, f))) ->
  nth_error (setd i np ds) j = if Nat.eqb j i then Some (mkd n (Some (np, f))) else nth_error ds j.
Proof.
  intros i np ds n m f j E. unfold setd. rewrite E.
  assert (L : i < length ds) by (apply nth_error_Some; congruence).
  assert (Lf : length (firstn i ds) = i) by (rewrite firstn_length; lia).
  destruct (Nat.eqb j i) eqn:Q.
  - apply Nat.eqb_eq in Q. subst j. rewrite nth_error_app2 by lia. rewrite Lf, Nat.sub_diag. reflexivity.
  - apply Nat.eqb_neq in Q. destruct (Nat.lt_ge_cases j i) as [C|C].
    + rewrite nth_error_app1 by lia. clear - C. revert i C. revert ds.
      induction j as [|j IH]; intros ds [|i] C; try lia; destruct ds; simpl; auto.
      apply IH. lia.
    + rewrite nth_error_app2 by lia. rewrite Lf. destruct (j - i) as [|d] eqn:D; [lia|]. cbn [nth_error].
      replace j with (S i + d) by lia. clear. revert ds. generalize (S i). intros k. revert d.
      induction k as [|k IH]; intros d ds; [reflexivity|]. destruct ds; simpl; [destruct d; reflexivity|].
      apply IH.
Qed.

Lemma setd_length : forall i np ds, length (setd i np ds) = length ds.
Proof.
  intros. unfold setd. destruct (nth_error ds i) as [[n [[m f]|]]|] eqn:E; auto.
  assert (L : i < length ds) by (apply nth_error_Some; congruence).
  rewrite app_length, firstn_length. cbn [length]. rewrite skipn_length. lia.
Qed.

Lemma setd_ext : forall i np ds, ext ds (setd i np ds).
Proof.
  intros i np ds. constructor; [rewrite setd_length; lia|]. intros j Hj.
  destruct (nth_error ds i) as [[n [[m f]|]]|] eqn:E;
    try (unfold setd; rewrite E; repeat split; reflexivity).
  unfold named, is_var, is_fn. rewrite (setd_nth i np ds n m f j E).
  destruct (Nat.eqb j i) eqn:Q; [|repeat split; reflexivity].
  apply Nat.eqb_eq in Q. subst j. rewrite E. repeat split; reflexivity.
Qed.

Lemma setp_id : forall i np y, y_id (set_params i np y) = y_id y.
Proof. intros. unfold set_params. destruct (Nat.eqb (y_id y) i); [|reflexivity]. destruct (y_kind y); reflexivity. Qed.

Lemma setp_fun : forall i np y, is_fun (set_params i np y) = is_fun y.
Proof.
  intros. unfold set_params. destruct (Nat.eqb (y_id y) i); [|reflexivity].
  unfold is_fun. destruct (y_kind y) eqn:E; simpl; rewrite ?E; reflexivity.
Qed.

Lemma setp_var : forall i np y, is_fun y = false -> set_params i np y = y.
Proof.
  intros i np y H. unfold set_params. destruct (Nat.eqb (y_id y) i); [|reflexivity].
  unfold is_fun in H. destruct (y_kind y); [reflexivity|discriminate].
Qed.

Lemma setp_other : forall i np y, y_id y <> i -> set_params i np y = y.
Proof. intros i np y H. unfold set_params. apply Nat.eqb_neq in H. rewrite H. reflexivity. Qed.

Lemma setp_R : forall i np ds y, Rsym ds y -> is_fn ds i = true -> Rsym (setd i np ds) (set_params i np y).
Proof.
  intros i np ds y H Hi. unfold Rsym in *. rewrite setp_id.
  unfold is_fn in Hi. destruct (nth_error ds i) as [[n [[m f]|]]|] eqn:E; try discriminate.
  rewrite (setd_nth i np ds n m f _ E). unfold set_params.
  destruct (Nat.eqb (y_id y) i) eqn:Q; [|exact H].
  apply Nat.eqb_eq in Q. rewrite Q, E in H. unfold decl_of in H.
  destruct (y_kind y) eqn:K; inversion H; subst. reflexivity.
Qed.

Lemma setp_own : forall i np t st y,
  tree_ok t -> In y (sc_funs t) -> y_id y = i -> NoDup (map y_id (flat_map own (t :: st))) ->
  flat_map own (map_funs (set_params i np) t :: st) = map (set_params i np) (flat_map own (t :: st)).
Proof.
  intros i np [k f u v g c] st y T Hy Ei ND. cbn [sc_funs] in Hy.
  cbn [map_funs flat_map] in *. rewrite !own_eq in *. rewrite !map_app.
  apply tree_ok_eq in T. destruct T as (Tv & _ & _).
  apply in_split in Hy. destruct Hy as (g1 & g2 & ->).
  assert (O : forall z, In z (flat_map (blk own) c ++ flat_map own st) -> set_params i np z = z).
  { intros z Hz. apply setp_other. intros Ez.
    replace (((v ++ g1 ++ y :: g2) ++ flat_map (blk own) c) ++ flat_map own st)
      with ((v ++ g1) ++ y :: (g2 ++ flat_map (blk own) c ++ flat_map own st)) in ND
      by (rewrite <- !app_assoc; reflexivity).
    rewrite map_app in ND. cbn [map] in ND. apply NoDup_remove_2 in ND. apply ND.
    apply in_or_app. right. rewrite map_app. apply in_or_app. right.
    apply in_map_iff. exists z. split; [congruence|exact Hz]. }
  assert (M : forall l, (forall z, In z l -> set_params i np z = z) -> map (set_params i np) l = l).
  { induction l as [|a l IH]; intros H; [reflexivity|]. simpl. rewrite H by (left; reflexivity).
    rewrite IH by (intros; apply H; right; assumption). reflexivity. }
  rewrite (M v), (M (flat_map (blk own) c)), (M (flat_map own st)).
  - reflexivity.
  - intros z Hz. apply O. apply in_or_app. right. exact Hz.
  - intros z Hz. apply O. apply in_or_app. left. exact Hz.
  - intros z Hz. apply setp_var. rewrite Forall_forall in Tv. auto.
Qed.

Lemma setp_ids : forall i np l, map y_id (map (set_params i np) l) = map y_id l.
Proof. intros. rewrite map_map. apply map_ext. intros. apply setp_id. Qed.

(** The result of a declaration: the symbol is known with its function. *)
Definition declared (s : cst) (fid : nat) : Prop :=
  exists t st y p, c_stack s = t :: st /\ In y (own t) /\ y_kind y = KFun p fid.

Lemma R_fun : forall s z x np,
  R s z ->
  R (fst (register_fun ty x np s)) (fst (spec_fun ty x np z)) /\
  snd (register_fun ty x np s) = snd (spec_fun ty x np z) /\
  (forall fid, snd (register_fun ty x np s) = Some fid ->
     declared (fst (register_fun ty x np s)) fid) /\
  (match c_fs (fst (register_fun ty x np s)) with g :: _ => fs_this g | [] => false end =
   match c_fs s with g :: _ => fs_this g | [] => false end) /\
  (forall e es, z_env z = e :: es -> exists e' es', z_env (fst (spec_fun ty x np z)) = e' :: es' /\
      depth e' = depth e).
Proof.
  intros s z x np HR.
  destruct (Rst_hd _ _ _ _ _ _ (R_st _ _ HR))
      as (k & g & st' & f & fs' & e & es' & E1 & E2 & E3 & He & Hn & Hes & _).
  unfold register_fun, spec_fun. rewrite E3.
  pose proof (down_group (z_decls z) x (fs_fid f) g (n_blocks e) st'
      (v_blocks _ _ _ _ _ _ _ He) (group_nonempty _ _ _ _ _ _ _ He) (v_fid _ _ _ _ _ _ _ He) Hn) as D.
  pose proof (up_down_R s z x (Some np) HR) as U. rewrite E3, E1 in U.
  pose proof (group_nonempty _ _ _ _ _ _ _ He) as G. destruct g as [|t g]; [congruence|].
  rewrite E1. cbn [app]. change (t :: g ++ st') with ((t :: g) ++ st').
  pose proof (v_blocks _ _ _ _ _ _ _ He) as HB. inversion HB as [|? b ? bs Rt Rg Eb Ebs]; subst.
  assert (Same : forall e0 es0, e :: es' = e0 :: es0 -> exists e1 es1, z_env z = e1 :: es1 /\ depth e1 = depth e0)
    by (intros e0 es0 Q; inversion Q; subst; exists e0, es0; auto).
  destruct (down x None ((t :: g) ++ st')) as [y|] eqn:Dn.
  - destruct D as (V & Ry & t0 & Ht0 & Hy0). rewrite <- Ebs in V. rewrite V.
    pose proof Ry as Ry'. unfold Rsym in Ry'. rewrite Ry'. unfold decl_of.
    destruct (y_kind y) as [n|p q] eqn:K.
    { cbn. refine (conj HR (conj eq_refl (conj _ (conj eq_refl Same)))). discriminate. }
    assert (X : existsb (fun z0 => Nat.eqb (y_id z0) (y_id y)) (sc_funs t) =
                existsb (Nat.eqb (y_id y)) b).
    { apply eq_true_iff_eq. rewrite !existsb_exists. split.
      - intros (w & Hw & Q). apply Nat.eqb_eq in Q. exists (y_id y). rewrite Nat.eqb_refl. split; [|reflexivity].
        apply (block_ids _ _ _ _ Rt). rewrite <- Q. apply in_map. apply in_or_app. right. exact Hw.
      - intros (i & Hi & Q). apply Nat.eqb_eq in Q. subst i.
        apply (block_ids _ _ _ _ Rt) in Hi. apply in_map_iff in Hi. destruct Hi as (w & Ew & Hw).
        exists w. rewrite Ew, Nat.eqb_refl. split; [|reflexivity]. apply in_app_or in Hw.
        destruct Hw as [Hw|Hw]; [|exact Hw]. exfalso.
        pose proof (r_own _ _ _ Rt) as O. rewrite Forall_forall in O.
        assert (Rw : Rsym (z_decls z) w) by (apply O; apply direct_own; apply in_or_app; left; exact Hw).
        unfold Rsym in Rw. rewrite Ew, Ry' in Rw. unfold decl_of in Rw. rewrite K in Rw.
        pose proof (r_tree _ _ _ Rt) as T. destruct t as [tk tf tu tv tg tc].
        apply tree_ok_eq in T. destruct T as (T & _). rewrite Forall_forall in T.
        specialize (T w Hw). unfold is_fun in T. destruct (y_kind w); [|discriminate].
        inversion Rw. }
    rewrite X. cbn [hd]. destruct (existsb (Nat.eqb (y_id y)) b) eqn:XB.
    2: { cbn. refine (conj HR (conj eq_refl (conj _ (conj eq_refl Same)))). discriminate. }
    assert (Hyt : exists w, In w (sc_funs t) /\ y_id w = y_id y).
    { apply existsb_exists in X. destruct X as (w & Hw & Q). apply Nat.eqb_eq in Q. eauto. }
    destruct Hyt as (w & Hw & Ew).
    pose proof (setp_own (y_id y) np t (g ++ st') w (r_tree _ _ _ Rt) Hw Ew) as OW.
    pose proof (R_uniq _ _ HR) as ND. rewrite E1 in ND. change (flat_map own ((t :: g) ++ st'))
      with (flat_map own (t :: g ++ st')) in ND. specialize (OW ND).
    assert (Hfn : is_fn (z_decls z) (y_id y) = true) by (rewrite (sym_is_fn _ _ Ry); unfold is_fun; rewrite K; reflexivity).
    assert (SD : setd (y_id y) np (z_decls z) =
       firstn (y_id y) (z_decls z) ++ mkd (y_name y) (Some (np, q)) :: skipn (S (y_id y)) (z_decls z)).
    { unfold setd. rewrite Ry'. unfold decl_of. rewrite K. reflexivity. }
    cbn [fst snd]. rewrite <- SD.
    pose proof (Rst_syms _ _ _ _ _ _ (R_st _ _ HR)) as SY. rewrite E1 in SY.
    change (flat_map own ((t :: g) ++ st')) with (flat_map own (t :: g ++ st')) in SY.
    assert (SY' : Forall (Rsym (setd (y_id y) np (z_decls z)))
                    (flat_map own (map_funs (set_params (y_id y) np) t :: g ++ st'))).
    { rewrite OW. apply Forall_forall. intros a Ha. apply in_map_iff in Ha. destruct Ha as (a0 & <- & Ha0).
      apply setp_R; [|exact Hfn]. rewrite Forall_forall in SY. auto. }
    pose proof (setd_ext (y_id y) np (z_decls z)) as EX.
    split; [|split; [reflexivity|split; [|split; [reflexivity|]]]].
    + constructor; cbn [c_next c_nfun c_stack c_fs c_funs z_decls z_nfun z_env z_plain z_done].
      * rewrite setd_length. apply HR.
      * apply HR.
      * destruct (Rst_open _ _ _ _ _ _ (R_st _ _ HR))
          as (k1 & t1 & g1 & st1 & f1 & fs1 & e1 & es1 & F1 & F2 & F3 & He1 & _ & _ & Hcl).
        rewrite E2 in F2. rewrite E3 in F3. inversion F2; subst f1 fs1. inversion F3; subst e1 es1.
        assert (LG : length (t1 :: g1) = length (t :: g)).
        { rewrite (F2_length _ _ _ _ _ (v_blocks _ _ _ _ _ _ _ He1)).
          rewrite (F2_length _ _ _ _ _ HB). reflexivity. }
        rewrite E1 in F1. inversion F1 as [[Et Eg]]. subst t1.
        assert (g1 = g /\ st1 = st').
        { clear - Eg LG. simpl in LG. assert (L : length g = length g1) by lia. clear LG.
          revert g1 L Eg. induction g as [|a g IH]; intros [|a1 g1] L Eg; simpl in *; try discriminate; [auto|].
          inversion Eg; subst. destruct (IH g1) as [-> ->]; auto. }
        destruct H as [-> ->].
        rewrite E2. change (map_funs (set_params (y_id y) np) t :: g ++ st') with
          ((map_funs (set_params (y_id y) np) t :: g) ++ st').
        cbn [flat_map] in SY'. rewrite flat_map_app in SY'.
        apply Forall_app in SY'. destruct SY' as [SYt SY']. apply Forall_app in SY'. destruct SY' as [SYg SYs].
        cbn [flat_map] in OW. rewrite map_app in OW.
        assert (OT : own (map_funs (set_params (y_id y) np) t) = map (set_params (y_id y) np) (own t)).
        { clear - OW. 
          assert (L : length (own (map_funs (set_params (y_id y) np) t)) = length (map (set_params (y_id y) np) (own t))).
          { rewrite map_length. destruct t as [tk tf tu tv tg tc]. cbn [map_funs]. rewrite !own_eq, !app_length, map_length. reflexivity. }
          revert OW L. generalize (own (map_funs (set_params (y_id y) np) t)), (map (set_params (y_id y) np) (own t)).
          induction l as [|a l IH]; intros [|a' l'] OW L; simpl in *; try discriminate; [reflexivity|].
          inversion OW. f_equal. apply IH; auto. }
        apply Hcl; auto.
        destruct He1. constructor; auto.
        -- eapply shape_hd; [|exact v_shape]. destruct t; reflexivity.
        -- rewrite <- Ebs. constructor.
           ++ destruct Rt. constructor; auto.
              ** destruct t as [tk tf tu tv tg tc]. cbn [map_funs]. apply tree_ok_eq in r_tree.
                 apply tree_ok_eq. destruct r_tree as (T1 & T2 & T3). split; [exact T1|]. split; [|exact T3].
                 apply Forall_forall. intros a Ha. apply in_map_iff in Ha. destruct Ha as (a0 & <- & Ha0).
                 rewrite setp_fun. rewrite Forall_forall in T2. auto.
              ** destruct t as [tk tf tu tv tg tc]. cbn [map_funs sc_vars] in *. rewrite r_vars.
                 apply filter_same. intros i Hi. rewrite Forall_forall in r_range. symmetry. apply EX. auto.
              ** destruct t as [tk tf tu tv tg tc]. cbn [map_funs sc_funs] in *. rewrite setp_ids, r_funs.
                 apply filter_same. intros i Hi. rewrite Forall_forall in r_range. symmetry. apply EX. auto.
              ** rewrite setd_length. assumption.
              ** intros x0 i j Hi Hj. rewrite Forall_forall in r_range.
                 destruct (x_same _ _ EX i (r_range i Hi)) as (Xi & _).
                 destruct (x_same _ _ EX j (r_range j Hj)) as (Xj & _). rewrite Xi, Xj. apply r_uniq; assumption.
              ** destruct t; assumption.
           ++ clear - Rg EX SYg. revert SYg. induction Rg; intros SYg; constructor.
              ** simpl in SYg. apply Forall_app in SYg. eapply Rsc_ext; eauto. apply SYg.
              ** apply IHRg. simpl in SYg. apply Forall_app in SYg. apply SYg.
        -- inversion v_fid; subst. constructor; [|assumption]. destruct t; assumption.
        -- intros i. rewrite v_seen. cbn [flat_map]. rewrite OT, !map_app, setp_ids. tauto.
        -- intros a Ha. apply v_slot. destruct t; exact Ha.
        -- intros i. rewrite v_cover. destruct t; tauto.
        -- rewrite v_len. destruct t; reflexivity.
        -- intros a p0 q0 Ha Ka. cbn [flat_map] in Ha. rewrite OT in Ha. apply in_app_or in Ha.
           destruct Ha as [Ha|Ha].
           ++ apply in_map_iff in Ha. destruct Ha as (a0 & <- & Ha0).
              assert (Q : exists p1, y_kind a0 = KFun p1 q0).
              { unfold set_params in Ka. destruct (Nat.eqb (y_id a0) (y_id y)); [|eauto].
                destruct (y_kind a0) eqn:Q; [congruence|]. simpl in Ka. inversion Ka; subst. eauto. }
              destruct Q as (p1 & Q). eapply v_funs; [|exact Q]. cbn [flat_map]. apply in_or_app. left. exact Ha0.
           ++ eapply v_funs; [|exact Ka]. cbn [flat_map]. apply in_or_app. right. exact Ha.
      * rewrite OW, setp_ids. exact ND.
      * apply Rfns_set; [apply HR|]. split; [reflexivity|exact I].
    + intros fid Q. inversion Q; subst fid. unfold declared. cbn [c_stack].
      exists (map_funs (set_params (y_id y) np) t), (g ++ st'), (set_params (y_id y) np w), np.
      split; [reflexivity|]. split.
      * apply direct_own. apply in_or_app. right. destruct t as [tk tf tu tv tg tc]. cbn [map_funs sc_funs].
        apply in_map. exact Hw.
      * pose proof (r_own _ _ _ Rt) as O. rewrite Forall_forall in O.
        assert (Rw : Rsym (z_decls z) w) by (apply O; apply direct_own; apply in_or_app; right; exact Hw).
        unfold Rsym in Rw. rewrite Ew, Ry' in Rw. unfold decl_of in Rw. rewrite K in Rw.
        unfold set_params. rewrite Ew, Nat.eqb_refl. destruct (y_kind w) as [|p1 q1]; inversion Rw; subst.
        reflexivity.
    + intros e0 es0 Q. inversion Q; subst. exists e0, es0. split; reflexivity.
  - rewrite <- Ebs in D. rewrite D. destruct (ty x); cbn [orb].
    { cbn. refine (conj HR (conj eq_refl (conj _ (conj eq_refl Same)))). discriminate. }
    specialize (U (or_intror eq_refl)). change (t :: g ++ st') with ((t :: g) ++ st').
    destruct (up_down x (Some np) ((t :: g) ++ st')) as [y|] eqn:UD.
    + destruct (clash (z_decls z) x (Some np) e) eqn:C; [|destruct U as [_ U]; specialize (U eq_refl); discriminate].
      cbn. refine (conj HR (conj eq_refl (conj _ (conj eq_refl Same)))). discriminate.
    + destruct U as [U _]. rewrite (U eq_refl).
      pose (y := mksym (c_next s) x (KFun np (c_nfun s))).
      assert (Hf0 : find (named (z_decls z) (y_name y)) (hd [] (n_blocks e)) = None).
      { rewrite <- Ebs. simpl in D |- *. destruct (find (named (z_decls z) x) b); [discriminate|reflexivity]. }
      destruct (R_add s z y e es' HR E3 (R_next _ _ HR) Hf0) as (t1 & st1 & f1 & fs1 & F1 & F2 & A & B).
      { intros m Em. simpl in Em. discriminate. }
      { intros p q Em. simpl in Em. congruence. }
      rewrite E1 in F1. inversion F1; subst t1 st1. rewrite E2 in F2. inversion F2; subst f1 fs1.
      unfold add_sym, add_fs, add_env in A, B. cbn [is_fun y_kind y decl_of y_name] in A, B.
      assert (EF : mkfs (fs_fid f) (fs_this f) (fs_locals f) (fs_code f) = f) by (destruct f; reflexivity).
      rewrite EF in A. rewrite <- Ebs in *. rewrite <- (R_nfun _ _ HR).
      split; [|split; [reflexivity|split; [|split; [reflexivity|]]]].
      * constructor; cbn [fst c_next c_nfun c_stack c_fs c_funs z_decls z_nfun z_env z_plain z_done].
        -- rewrite app_length, (R_next _ _ HR). simpl. lia.
        -- reflexivity.
        -- rewrite E2. exact A.
        -- exact B.
        -- apply Rfns_set; [apply HR|]. split; [reflexivity|exact I].
      * intros fid Q. inversion Q; subst fid. unfold declared. cbn [fst c_stack].
        exists (add_fun y t), (g ++ st'), y, np. split; [reflexivity|]. split; [|reflexivity].
        change (add_fun y t) with (add_sym y t). apply add_sym_own. left. reflexivity.
      * intros e0 es0 Q. inversion Q; subst. eexists. eexists. split; [reflexivity|].
        unfold depth. cbn. rewrite <- Ebs. reflexivity.
Qed.

(* ------------------------------------------------------------------ *)
(** * Functions and blocks begin *)

Lemma Rst_hd_fid : forall pl n ds st f fs es, Rst pl n ds st (f :: fs) es -> fs_fid f < n.
Proof.
  intros pl n ds st f fs es H. inversion H as [g0 f0 e0 H0|k0 g0 f0 e0 st0 f0' fs0 es0 H0]; subst; apply H0.
Qed.

Lemma R_enter : forall s z k fid th ps e es base,
  R s z -> z_env z = e :: es -> (k = SFunc \/ k = SMethod) ->
  base = (match k with SMethod => 1 | _ => depth e end) ->
  fid < c_nfun s -> (forall f fs, c_fs s = f :: fs -> fs_fid f <> fid) ->
  snd (enter ty k fid th ps s) = snd (spec_enter ty fid base th ps z) /\
  R (fst (enter ty k fid th ps s)) (fst (spec_enter ty fid base th ps z)).
Proof.
  intros s z k fid th ps e es base HR Ez Hk Hb Hf Hd. unfold enter, spec_enter.
  assert (HR' : R (mkcst (Sc k fid false [] [] [] :: c_stack s)
             (mkfs fid th [] [] :: c_fs s) (c_next s) (c_nfun s) (c_funs s) (c_orphans s))
             (set_env (mkse fid base [[]] [] [] th [] :: z_env z) z)).
  { constructor; cbn [c_next c_nfun c_stack c_fs c_funs z_decls z_nfun z_env z_plain z_done set_env].
    - apply HR.
    - apply HR.
    - pose proof (R_st _ _ HR) as S. pose proof (inner_Rst (z_plain z) (c_nfun s) (z_decls z) (c_stack s) (c_fs s) e es) as IN.
      rewrite Ez in S. specialize (IN S).
      destruct (c_fs s) as [|f fs] eqn:Ef; [inversion S|]. rewrite Ez.
      change (Sc k fid false [] [] [] :: c_stack s) with ([Sc k fid false [] [] []] ++ c_stack s).
      eapply Rst_fun with (k := k).
      + constructor; cbn [fs_fid fs_this fs_locals fs_code n_no n_base n_blocks n_seen n_vars n_this n_acc
           flat_map own preorder app map].
        * exists [], (Sc k fid false [] [] []). repeat split; constructor.
        * destruct Hk; subst; discriminate.
        * constructor; [|constructor]. constructor; cbn; auto. intros x i j [].
        * repeat constructor.
        * reflexivity.
        * exact Hf.
        * intros i. reflexivity.
        * reflexivity.
        * intros y [].
        * intros i. reflexivity.
        * reflexivity.
        * constructor.
        * reflexivity.
        * constructor.
        * intros y p q [].
        * intros _. constructor.
      + destruct Hk; subst; discriminate.
      + cbn [n_base]. rewrite Hb. destruct Hk; subst k; [symmetry; exact IN|reflexivity].
      + cbn [fs_fid]. eapply Hd. reflexivity.
      + exact S.
    - cbn [flat_map own app]. apply HR.
    - apply HR. }
  destruct (R_args ty ps _ _ HR') as (A & B).
  destruct (register_args ty ps _) as [s1 b1]. destruct (spec_args ty ps _) as [z1 b2].
  cbn [fst snd] in A, B. subst b2. destruct b1; cbn [fst snd].
  - split; [|exact B]. rewrite Hb. pose proof (R_st _ _ HR) as S. rewrite Ez in S.
    pose proof (inner_Rst _ _ _ _ _ _ _ S) as IN.
    destruct Hk; subst k; [rewrite IN|]; reflexivity.
  - split; [reflexivity|exact B].
Qed.

Lemma stack_hd : forall st t (g st' : list sc) (a : sc) r, st = t :: g ++ st' -> st = a :: r -> a = t /\ r = g ++ st'.
Proof. intros. subst. inversion H0; auto. Qed.

Lemma R_open : forall s z e es t r,
  R s z -> z_env z = e :: es -> c_stack s = t :: r ->
  R (set_stack (Sc SBlock (sc_fid t) false [] [] [] :: c_stack s) s)
    (set_env (mkse (n_no e) (n_base e) ([] :: n_blocks e) (n_seen e) (n_vars e)
                       (n_this e) (n_acc e) :: es) z).
Proof.
  intros s z e es t r HR Ez Et.
  destruct (Rst_open _ _ _ _ _ _ (R_st _ _ HR))
    as (k & t0 & g & st' & f & fs' & e0 & es' & E1 & E2 & E3 & He & _ & _ & Hcl).
  rewrite Ez in E3. inversion E3; subst e0 es'. rewrite Et in E1. inversion E1; subst t0 r.
  constructor; cbn [c_next c_nfun c_stack c_fs c_funs z_decls z_nfun z_env z_plain z_done set_env set_stack].
  - apply HR.
  - apply HR.
  - rewrite E2, Et. change (Sc SBlock (sc_fid t) false [] [] [] :: t :: g ++ st')
      with ((Sc SBlock (sc_fid t) false [] [] [] :: t :: g) ++ st').
    apply Hcl; auto.
    + destruct He. constructor; cbn [n_no n_base n_blocks n_seen n_vars n_this n_acc]; auto.
      * destruct v_shape as (bs & u & Eg & Hb & Hk). exists (Sc SBlock (sc_fid t) false [] [] [] :: bs), u.
        rewrite Eg. repeat split; auto.
      * constructor; [|assumption]. constructor; cbn; auto. intros x i j [].
      * constructor; [|assumption]. inversion v_fid; subst. assumption.
    + apply ext_refl.
    + pose proof (Rst_syms _ _ _ _ _ _ (R_st _ _ HR)) as S. rewrite Et in S.
      change (t :: g ++ st') with ((t :: g) ++ st') in S. rewrite flat_map_app in S.
      apply Forall_app in S. apply S.
  - cbn [flat_map own app]. apply HR.
  - apply HR.
Qed.

(* ------------------------------------------------------------------ *)
(** * Blocks end *)

Lemma add_kids_own : forall l p, own (add_kids l p) = own p ++ flat_map (blk own) l.
Proof.
  intros l [k f u v g c]. cbn [add_kids]. rewrite !own_eq, flat_map_app, app_assoc. reflexivity.
Qed.
Lemma add_kids_preorder : forall l p, preorder (add_kids l p) = preorder p ++ flat_map (blk preorder) l.
Proof.
  intros l [k f u v g c]. cbn [add_kids]. rewrite !preorder_eq, flat_map_app, app_assoc. reflexivity.
Qed.
Lemma add_kids_tree : forall l p, tree_ok p -> Forall (kid_ok (sc_fid p)) l -> tree_ok (add_kids l p).
Proof.
  intros l [k f u v g c] T H. cbn [add_kids sc_fid] in *. apply tree_ok_eq in T. apply tree_ok_eq.
  destruct T as (A & B & C). repeat split; auto. apply Forall_app. auto.
Qed.

Lemma close_own : forall lp t, is_block t = true -> flat_map (blk own) (close_block lp t) = own t.
Proof.
  intros lp [k f u v g c] B. unfold close_block.
  assert (S : forall u', blk own (Sc k f u' v g c) = own (Sc k f u v g c)).
  { intros u'. unfold blk. change (is_block (Sc k f u' v g c)) with (is_block (Sc k f u v g c)). rewrite B. reflexivity. }
  destruct v as [|y v]; [destruct lp|]; cbn [flat_map]; rewrite ?S, ?app_nil_r; try reflexivity.
  unfold blk at 1. change (is_block (Sc k f true [] g [])) with (is_block (Sc k f u [] g c)). rewrite B.
  rewrite !own_eq. cbn [flat_map app]. rewrite app_nil_r. reflexivity.
Qed.
Lemma close_preorder : forall lp t, is_block t = true ->
  flat_map (blk preorder) (close_block lp t) = preorder t.
Proof.
  intros lp [k f u v g c] B. unfold close_block.
  assert (S : forall u', blk preorder (Sc k f u' v g c) = preorder (Sc k f u v g c)).
  { intros u'. unfold blk. change (is_block (Sc k f u' v g c)) with (is_block (Sc k f u v g c)). rewrite B. reflexivity. }
  destruct v as [|y v]; [destruct lp|]; cbn [flat_map]; rewrite ?S, ?app_nil_r; try reflexivity.
  unfold blk at 1. change (is_block (Sc k f true [] g [])) with (is_block (Sc k f u [] g c)). rewrite B.
  rewrite !preorder_eq. cbn [flat_map app]. reflexivity.
Qed.
Lemma close_kids : forall lp t, is_block t = true -> tree_ok t -> sc_unused t = false ->
  Forall (kid_ok (sc_fid t)) (close_block lp t).
Proof.
  intros lp [k f u v g c] B T U. cbn [sc_unused sc_fid] in *. subst u.
  assert (K : kid_ok f (Sc k f false v g c)).
  { unfold kid_ok. rewrite B. split; [reflexivity|]. split; [exact T|]. discriminate. }
  unfold close_block. destruct v as [|y v]; [destruct lp|]; try (constructor; [exact K|constructor]).
  apply tree_ok_eq in T. destruct T as (T1 & T2 & T3). constructor; [|exact T3].
  unfold kid_ok. change (is_block (Sc k f true [] g [])) with (is_block (Sc k f false [] g c)). rewrite B.
  split; [reflexivity|]. split; [|split; reflexivity]. apply tree_ok_eq. repeat split; auto.
Qed.

Lemma Permutation_ids : forall (l l' : list sym) i,
  Permutation l l' -> (In i (map y_id l) <-> In i (map y_id l')).
Proof. intros l l' i P. split; apply Permutation_in; apply Permutation_map; [|symmetry]; exact P. Qed.

Lemma R_close : forall s z e es lp t p r b b' bs kb,
  R s z -> z_env z = e :: es -> c_stack s = t :: p :: r -> is_block t = true ->
  n_blocks e = b :: b' :: bs ->
  R (set_stack (add_kids (close_block lp t) p :: r) s)
    (and_keep kb (set_env (mkse (n_no e) (n_base e) (b' :: bs) (n_seen e) (n_vars e)
                       (n_this e) (n_acc e) :: es) z)).
Proof.
  intros s z e es lp t p r b b' bs kb HR Ez Et Bt Eb.
  destruct (Rst_open _ _ _ _ _ _ (R_st _ _ HR))
    as (k & t0 & g & st' & f & fs' & e0 & es' & E1 & E2 & E3 & He & _ & _ & Hcl).
  rewrite Ez in E3. inversion E3; subst e0 es'. rewrite Et in E1. inversion E1 as [[Q1 Q2]]; subst t0.
  pose proof (v_blocks _ _ _ _ _ _ _ He) as HB. rewrite Eb in HB.
  inversion HB as [|? ? ? ? Rt Rg]; subst. inversion Rg as [|p0 ? g0 ? Rp Rg']; subst.
  simpl in Q2. inversion Q2; subst p0 r. clear Q2.
  pose proof (Rst_syms _ _ _ _ _ _ (R_st _ _ HR)) as SY. rewrite Et in SY.
  assert (PO : forall st0, Permutation (flat_map own (add_kids (close_block lp t) p :: st0))
                             (flat_map own (t :: p :: st0))).
  { intros st0. cbn [flat_map]. rewrite add_kids_own, close_own by exact Bt.
    rewrite app_assoc. apply Permutation_app_tail. apply Permutation_app_comm. }
  assert (PP : forall st0, Permutation (flat_map preorder (add_kids (close_block lp t) p :: st0))
                             (flat_map preorder (t :: p :: st0))).
  { intros st0. cbn [flat_map]. rewrite add_kids_preorder, close_preorder by exact Bt.
    rewrite app_assoc. apply Permutation_app_tail. apply Permutation_app_comm. }
  assert (FT : sc_fid t = fs_fid f /\ sc_fid p = fs_fid f).
  { pose proof (v_fid _ _ _ _ _ _ _ He) as F. inversion F as [|? ? F1 F2]; subst. inversion F2; subst. auto. }
  constructor; cbn [c_next c_nfun c_stack c_fs c_funs z_decls z_nfun z_env z_plain z_done set_env set_stack and_keep].
  - apply HR.
  - apply HR.
  - rewrite E2. change (add_kids (close_block lp t) p :: g0 ++ st') with ((add_kids (close_block lp t) p :: g0) ++ st').
    apply Hcl; auto.
    + destruct He. constructor; cbn [n_no n_base n_blocks n_seen n_vars n_this n_acc]; auto.
      * destruct v_shape as (bs0 & u & Eg & Hb & Hk). destruct bs0 as [|b0 bs0].
        -- inversion Eg.
        -- inversion Eg; subst b0. inversion Hb; subst.
           assert (X : exists bs r, p :: g0 = bs ++ [r] /\ Forall (fun s => is_block s = true) bs /\ sc_kind r = sc_kind u) by eauto.
           eapply shape_hd; [|exact X]. destruct p; reflexivity.
      * constructor; [|assumption]. destruct Rp. constructor; auto.
        -- apply add_kids_tree; [assumption|]. destruct FT as [F1 F2]. rewrite F2, <- F1.
           apply close_kids; auto; apply Rt.
        -- destruct p; assumption.
        -- destruct p; assumption.
        -- rewrite add_kids_own, close_own by exact Bt. apply Forall_app. split; [assumption|]. apply Rt.
        -- destruct p; assumption.
      * inversion v_fid as [|? ? F1 F2]; subst. inversion F2 as [|? ? F3 F4]; subst.
        constructor; [|assumption]. destruct p; assumption.
      * intros i. rewrite v_seen. apply Permutation_ids. symmetry. apply PO.
      * intros y Hy. apply v_slot. eapply Permutation_in; [apply PP|exact Hy].
      * intros i. rewrite v_cover. apply Permutation_ids. symmetry. apply PP.
      * rewrite v_len. symmetry. apply Permutation_length. apply PP.
      * intros y p1 q1 Hy. apply v_funs. eapply Permutation_in; [apply PO|exact Hy].
    + apply ext_refl.
    + change (t :: p :: g0 ++ st') with ((t :: p :: g0) ++ st') in SY. rewrite flat_map_app in SY.
      apply Forall_app in SY. apply SY.
  - eapply Permutation_NoDup; [|apply (R_uniq _ _ HR)]. rewrite Et. apply Permutation_map. symmetry. apply PO.
  - apply HR.
Qed.

(* ------------------------------------------------------------------ *)
(** * Functions end *)

Lemma Renv_Fin : forall pl n ds k t f e b,
  Renv pl n ds k [t] f e -> n_blocks e = [b] ->
  Fin pl f t (filter (is_var ds) b) (n_acc e).
Proof.
  intros pl n ds k t f e b He Eb.
  pose proof (v_blocks _ _ _ _ _ _ _ He) as HB. rewrite Eb in HB. inversion HB as [|? ? ? ? Rt]; subst.
  destruct He. cbn [flat_map] in *. rewrite app_nil_r in *.
  constructor; auto; apply Rt.
Qed.

Lemma same_kind : forall t t', same_but_slots t t' ->
  sc_kind t' = sc_kind t /\ sc_fid t' = sc_fid t /\ sc_unused t' = sc_unused t.
Proof. intros t t' [->|(m & ->)]; [auto|]. destruct t; auto. Qed.

Lemma R_end : forall s z e es t p r f g q b,
  R s z -> z_env z = e :: es -> es <> [] -> c_stack s = t :: p :: r -> c_fs s = f :: g :: q ->
  is_block t = false -> n_blocks e = [b] ->
  match finalize f t with
  | POk fn t' =>
      R (mkcst (add_kids [t'] p :: r) (g :: q) (c_next s) (c_nfun s)
             (set_func (c_funs s) (fs_fid f) (Some fn)) (c_orphans s))
        (mkst (z_decls z) es (z_nfun z)
           (set_done (z_done z) (n_no e)
              (Some (mksf (filter (is_var (z_decls z)) b) (n_vars e) (n_acc e))))
           (z_plain z) (z_keep z))
  | PErr => False
  | PUndef => z_plain z = false
  end.
Proof.
  intros s z e es t p r f g q b HR Ez Hes Et Ef Bt Eb.
  pose proof (R_st _ _ HR) as S. rewrite Ez, Et, Ef in S.
  inversion S as [|k g0 f0 e0 st0 f0' fs0 es0 He K Hbase Hne Hr EQ1]; subst.
  pose proof (v_blocks _ _ _ _ _ _ _ He) as HB. rewrite Eb in HB.
  inversion HB as [|t0 ? l' ? Rt Rn]; subst. inversion Rn; subst. simpl in EQ1. inversion EQ1; subst t0 st0.
  pose proof (finalize_ok _ _ _ _ _ (Renv_Fin _ _ _ _ _ _ _ _ He Eb)) as FO.
  destruct (finalize f t) as [fn t'| |]; [|exact FO|exact FO].
  destruct FO as (FA & SB & _). destruct (same_kind _ _ SB) as (SK & SF & SU).
  assert (BT : is_block t' = false) by (unfold is_block in *; rewrite SK; exact Bt).
  assert (FT : sc_fid t = fs_fid f) by (pose proof (v_fid _ _ _ _ _ _ _ He) as F; inversion F; assumption).
  assert (OE : own (add_kids [t'] p) = own p).
  { rewrite add_kids_own. cbn [flat_map]. unfold blk. rewrite BT. cbn. rewrite app_nil_r. reflexivity. }
  assert (PE : preorder (add_kids [t'] p) = preorder p).
  { rewrite add_kids_preorder. cbn [flat_map]. unfold blk. rewrite BT. cbn. rewrite app_nil_r. reflexivity. }
  constructor; cbn [c_next c_nfun c_stack c_fs c_funs z_decls z_nfun z_env z_plain z_done].
  - apply HR.
  - apply HR.
  - destruct (Rst_open _ _ _ _ _ _ Hr)
      as (k1 & t1 & g1 & st1 & f1 & fs1 & e1 & es1 & E1 & E2 & E3 & He1 & _ & _ & Hcl).
    inversion E1; subst t1 r. inversion E2; subst f1 fs1. subst es.
    change (add_kids [t'] p :: g1 ++ st1) with ((add_kids [t'] p :: g1) ++ st1).
    apply Hcl; auto.
    + destruct He1. constructor; auto.
      * eapply shape_hd; [|exact v_shape]. destruct p; reflexivity.
      * inversion v_blocks as [|? b1 ? bs1 Rp Rg1]; subst. constructor; [|assumption].
        destruct Rp. constructor; auto.
        -- apply add_kids_tree; [assumption|]. constructor; [|constructor]. unfold kid_ok. rewrite BT.
           split.
           ++ rewrite SF, FT. inversion v_fid; subst. congruence.
           ++ rewrite SU. apply Rt.
        -- destruct p; assumption.
        -- destruct p; assumption.
        -- rewrite OE. assumption.
        -- destruct p; assumption.
      * inversion v_fid; subst. constructor; [|assumption]. destruct p; assumption.
      * cbn [flat_map] in *. rewrite OE. assumption.
      * cbn [flat_map] in *. rewrite PE. assumption.
      * cbn [flat_map] in *. rewrite PE. assumption.
      * cbn [flat_map] in *. rewrite PE. assumption.
      * cbn [flat_map] in *. rewrite OE. assumption.
    + apply ext_refl.
    + pose proof (Rst_syms _ _ _ _ _ _ Hr) as SY. change (p :: g1 ++ st1) with ((p :: g1) ++ st1) in SY.
      rewrite flat_map_app in SY. apply Forall_app in SY. apply SY.
  - pose proof (R_uniq _ _ HR) as U. rewrite Et in U. cbn [flat_map] in *. rewrite map_app in U.
    rewrite OE. clear - U. induction (map y_id (own t)) as [|a l IH]; [exact U|].
    apply IH. simpl in U. inversion U; assumption.
  - rewrite (v_no _ _ _ _ _ _ _ He). apply Rfns_set; [apply HR|]. split; [reflexivity|].
    cbn [snd]. rewrite (v_vars _ _ _ _ _ _ _ He). cbn [o_vars]. exact FA.
Qed.

(** One step. *)
Theorem step_refines : forall o s z,
  R s z ->
  match step ty o s with
  | (s', Go) => snd (spec_step ty o z) = true /\ R s' (fst (spec_step ty o z))
  | (s', Fail) => snd (spec_step ty o z) = false /\ R s' (fst (spec_step ty o z))
  | (s', Undef) => z_plain z = false
  end.
Proof.
  intros o s z HR. destruct (R_env _ _ HR) as (e & es & Ez).
  destruct (Rst_open _ _ _ _ _ _ (R_st _ _ HR))
    as (k & t & g & st' & f & fs' & e0 & es' & E1 & E2 & E3 & He & Hm & Hfs & _).
  rewrite Ez in E3. inversion E3; subst e0 es'. clear E3.
  pose proof (v_blocks _ _ _ _ _ _ _ He) as HB. inversion HB as [|? b ? bs Rt Rg Eb Ebs]; subst.
  unfold spec_step. rewrite Ez. destruct o as [x|x|x|a a'| |lp|x ps|ps| |]; cbn [step].
  - destruct (R_var ty s z x HR) as (A & B). unfold ok.
    destruct (register_var ty x s) as [s1 b1], (spec_var ty x z) as [z1 b2]. cbn [fst snd] in *. subst b2.
    destruct b1; cbn [fst snd]; auto.
  - destruct (R_var ty s z x HR) as (A & B).
    unfold register_var, spec_var in *. rewrite Ez in *. destruct (ty x); cbn [orb fst snd] in *; [auto|].
    destruct (up_down x None (c_stack s)) eqn:UD; cbn [fst snd] in *;
      destruct (clash (z_decls z) x None e); cbn [fst snd] in *; try discriminate; [auto|].
    rewrite E1, E2. cbn [fst snd]. split; [reflexivity|].
    assert (EF : c_fs (push_var x s) = mkfs (fs_fid f) (fs_this f) (fs_locals f ++ [c_next s]) (fs_code f) :: fs').
    { unfold push_var. rewrite E1, E2. reflexivity. }
    eapply R_emit; [exact B|exact EF| |].
    + cbn [fs_locals]. assert (X : nth_error (fs_locals f ++ [c_next s]) (length (fs_locals f)) = Some (length (z_decls z))).
      { rewrite nth_error_app2, Nat.sub_diag by lia. simpl. rewrite (R_next _ _ HR). reflexivity. }
      destruct (sc_kind t); constructor; try constructor; exact X.
    + intros Q. destruct (sc_kind t) eqn:Kt; try (repeat constructor).
      exfalso. destruct (v_shape _ _ _ _ _ _ _ He) as (bs0 & u & Eg & Hb0 & Hk0).
      destruct bs0 as [|b0 bs0].
      * simpl in Eg. inversion Eg; subst. inversion Rg; subst.
        assert (es = []) by (apply Hm; congruence). subst es. rewrite <- Ebs in Q. discriminate.
      * inversion Eg; subst. inversion Hb0; subst. unfold is_block in H1. rewrite Kt in H1. discriminate.
  - pose proof (load_ok s z x f fs' HR E2) as L.
    destruct (load_sym ty x s) as [i|], (meaning ty x z) as [v|]; try contradiction; [|auto].
    destruct L as (La & Lb & Lc). split; [reflexivity|]. cbn [fst]. rewrite <- (and_plain_true (use [v] z)).
    eapply R_emit; [exact HR|exact E2| |].
    + cbn [accesses flat_map]. rewrite app_nil_r. exact La.
    + intros _. constructor; [apply load_plain; exact Lc|constructor].
  - pose proof (load_rand_ok s z a f fs' HR E2) as L. pose proof (load_rand_ok s z a' f fs' HR E2) as L'.
    destruct (load_rand ty a s) as [i|], (meaning_rand ty a z) as [v|]; try contradiction; [|auto].
    destruct (load_rand ty a' s) as [j|], (meaning_rand ty a' z) as [w|]; try contradiction; [|auto].
    destruct L as (La & Lb & Lc). destruct L' as (La' & Lb' & Lc').
    split; [reflexivity|]. cbn [fst]. eapply R_emit; [exact HR|exact E2| |].
    + apply bin_ok; assumption.
    + intros Q. apply bin_plain; auto. destruct a, a'; try discriminate; subst; simpl; auto.
  - rewrite E1. pose proof (R_st _ _ HR) as S. rewrite Ez in S. pose proof (inner_Rst _ _ _ _ _ _ _ S) as IN.
    rewrite <- E1, IN. unfold MAX_INNER.
    destruct (Nat.leb 10 (depth e)) eqn:Q.
    + apply Nat.leb_le in Q. assert (X : Nat.ltb (depth e) 10 = false) by (apply Nat.ltb_ge; exact Q).
      rewrite X. auto.
    + apply Nat.leb_gt in Q. assert (X : Nat.ltb (depth e) 10 = true) by (apply Nat.ltb_lt; exact Q).
      rewrite X. split; [reflexivity|]. eapply R_open; eauto.
  - rewrite <- Ebs. destruct (v_shape _ _ _ _ _ _ _ He) as (bs0 & u & Eg & Hb0 & Hk0).
    destruct bs0 as [|b0 bs0].
    + simpl in Eg. inversion Eg; subst. inversion Rg; subst. rewrite E1. cbn [app].
      destruct st' as [|p r]; [auto|].
      assert (B : is_block u = false) by (pose proof (v_kind _ _ _ _ _ _ _ He); unfold is_block; destruct (sc_kind u); congruence).
      rewrite B. auto.
    + inversion Eg; subst b0. assert (BT : is_block t = true) by (inversion Hb0; assumption). subst g. rewrite E1.
      assert (Gn : exists p g', bs0 ++ [u] = p :: g') by (destruct bs0; simpl; eauto).
      destruct Gn as (p & g' & Gn). rewrite Gn in *. cbn [app]. rewrite BT.
      inversion Rg as [|? b' ? bs' Rp Rg']; subst. split; [reflexivity|]. cbn [fst].
      eapply R_close; eauto.
  - destruct (R_fun s z x (length ps) HR) as (A & B & C & D & F).
    destruct (register_fun ty x (length ps) s) as [s1 o1], (spec_fun ty x (length ps) z) as [z1 o2].
    cbn [fst snd] in *. subst o2. destruct o1 as [fid|]; [|auto].
    destruct (F e es Ez) as (e1 & es1 & Ez1 & Dp).
    destruct (C fid eq_refl) as (t1 & st1 & y & p & Q1 & Q2 & Q3).
    destruct (Rst_open _ _ _ _ _ _ (R_st _ _ A))
      as (k2 & t2 & g2 & st2 & f2 & fs2 & e2 & es2 & G1 & G2 & G3 & He2 & _).
    rewrite Q1 in G1. inversion G1; subst t2 st1.
    assert (QF : fid <> fs_fid f2 /\ fid < c_nfun s1).
    { eapply (v_funs _ _ _ _ _ _ _ He2); [|exact Q3]. cbn [flat_map]. apply in_or_app. left. exact Q2. }
    destruct QF as [QF1 QF2].
    assert (TH : match c_fs s with [] => false | g0 :: _ => fs_this g0 end = n_this e).
    { rewrite E2. apply (v_this _ _ _ _ _ _ _ He). }
    destruct (R_enter s1 z1 SFunc fid (n_this e) ps e1 es1 (depth e) A Ez1 (or_introl eq_refl)) as (X & Y).
    + congruence.
    + exact QF2.
    + intros f3 fs3 Q. rewrite G2 in Q. inversion Q; subst. congruence.
    + rewrite TH. unfold ok. destruct (enter ty SFunc fid (n_this e) ps s1) as [s2 b2].
      cbn [fst snd] in *. destruct b2; auto.
  - set (s1 := mkcst (c_stack s) (c_fs s) (c_next s) (S (c_nfun s))
             (set_func (c_funs s) (c_nfun s) None) (c_orphans s)).
    set (z1 := mkst (z_decls z) (e :: es) (S (z_nfun z))
           (set_done (z_done z) (z_nfun z) None) (z_plain z) (z_keep z)).
    assert (A : R s1 z1).
    { constructor; cbn [s1 z1 c_next c_nfun c_stack c_fs c_funs z_decls z_nfun z_env z_plain z_done].
      - apply HR.
      - rewrite (R_nfun _ _ HR). reflexivity.
      - rewrite <- Ez. eapply Rst_ext; [apply HR|apply ext_refl|lia|].
        eapply Rst_syms. apply HR.
      - apply HR.
      - rewrite (R_nfun _ _ HR). apply Rfns_set; [apply HR|]. split; [reflexivity|exact I]. }
    destruct (R_enter s1 z1 SMethod (c_nfun s) true ps e es 1 A eq_refl (or_intror eq_refl) eq_refl) as (X & Y).
    + cbn. lia.
    + intros f3 fs3 Q. cbn in Q. rewrite E2 in Q. inversion Q; subst.
      pose proof (v_lt _ _ _ _ _ _ _ He). lia.
    + rewrite <- (R_nfun _ _ HR). unfold ok.
      destruct (enter ty SMethod (c_nfun s) true ps s1) as [s2 b2].
      cbn [fst snd] in *. destruct b2; auto.
  - rewrite <- Ebs. destruct (v_shape _ _ _ _ _ _ _ He) as (bs0 & u & Eg & Hb0 & Hk0).
    destruct bs0 as [|b0 bs0].
    + simpl in Eg. inversion Eg; subst. inversion Rg; subst. rewrite E1, E2. cbn [app].
      assert (SD : es = [] <-> st' = []).
      { destruct (Rst_hd _ _ _ _ _ _ (R_st _ _ HR))
          as (k3 & g3 & st3 & f3 & fs3 & e3 & es3 & W1 & W2 & W3 & W4 & W5 & W6 & W7 & W8).
        rewrite Ez in W3. inversion W3; subst e3 es3.
        pose proof (F2_length _ _ _ _ _ (v_blocks _ _ _ _ _ _ _ W4)) as L. rewrite <- Ebs in L.
        destruct g3 as [|? [|? ?]]; try discriminate. rewrite E1 in W1. inversion W1; subst. tauto. }
      destruct es as [|e1 es1].
      * destruct SD as [SD _]. rewrite (SD eq_refl). auto.
      * destruct st' as [|p r]; [destruct SD as [_ SD]; specialize (SD eq_refl); discriminate|].
        destruct fs' as [|f1 fs1]; [destruct Hfs as [Hfs _]; specialize (Hfs eq_refl); discriminate|].
        assert (B : is_block u = false) by (pose proof (v_kind _ _ _ _ _ _ _ He); unfold is_block; destruct (sc_kind u); congruence).
        assert (KU : sc_kind u = SFunc \/ sc_kind u = SMethod).
        { pose proof (v_kind _ _ _ _ _ _ _ He). destruct (sc_kind u) eqn:Q; auto; try congruence.
          destruct Hm as [Hm _]. specialize (Hm eq_refl). discriminate. }
        assert (NE : e1 :: es1 <> []) by discriminate.
        pose proof (R_end s z e (e1 :: es1) u p r f f1 fs1 b HR Ez NE E1 E2 B (eq_sym Ebs)) as RE.
        destruct (finalize f u) as [fn u'| |]; destruct KU as [KU|KU]; rewrite KU; auto; contradiction.
    + inversion Eg; subst b0. assert (BT : is_block t = true) by (inversion Hb0; assumption). subst g. rewrite E1, E2.
      assert (Gn : exists p g', bs0 ++ [u] = p :: g') by (destruct bs0; simpl; eauto).
      destruct Gn as (p & g' & Gn). rewrite Gn in *. cbn [app].
      inversion Rg as [|? b' ? bs' Rp Rg']; subst.
      assert (KT : sc_kind t = SBlock) by (unfold is_block in BT; destruct (sc_kind t); congruence).
      rewrite KT. destruct es; destruct fs'; auto.
  - auto.
Qed.

Lemma plain_mono : forall o z, z_plain z = false -> z_plain (fst (spec_step ty o z)) = false.
Proof.
  assert (V : forall x z, z_plain (put_var x z) = z_plain z).
  { intros x z. unfold put_var. destruct (z_env z); reflexivity. }
  assert (U : forall l z, z_plain (use l z) = z_plain z).
  { intros l z. unfold use. destruct (z_env z); reflexivity. }
  assert (A : forall ps z, z_plain (fst (spec_args ty ps z)) = z_plain z).
  { induction ps as [|x ps IH]; intros z; [reflexivity|]. cbn [spec_args]. destruct (z_env z); [reflexivity|].
    destruct (ty x || _); [reflexivity|]. rewrite IH. apply V. }
  assert (E : forall f b th ps z, z_plain (fst (spec_enter ty f b th ps z)) = z_plain z).
  { intros. unfold spec_enter. pose proof (A ps (set_env (mkse f b [[]] [] [] th [] :: z_env z) z)) as Q.
    destruct (spec_args ty ps _) as [z' [|]]; cbn [fst] in *; rewrite Q; reflexivity. }
  assert (SV : forall x z, z_plain (fst (spec_var ty x z)) = z_plain z).
  { intros x z. unfold spec_var. destruct (z_env z); [reflexivity|]. destruct (ty x || _); [reflexivity|]. apply V. }
  intros o z H. unfold spec_step. destruct (z_env z) as [|e r] eqn:Ez; [exact H|].
  destruct o as [x|x|x|a a'| |lp|x ps|ps| |].
  - rewrite SV. exact H.
  - specialize (SV x z). destruct (spec_var ty x z) as [z' [|]]; cbn [fst] in *; [|congruence].
    cbn [and_plain z_plain]. rewrite U, SV, H. reflexivity.
  - destruct (meaning ty x z); cbn [fst]; [rewrite U|]; exact H.
  - destruct (meaning_rand ty a z), (meaning_rand ty a' z); cbn [fst]; auto.
    cbn [and_plain z_plain]. rewrite U, H. reflexivity.
  - destruct (Nat.ltb (depth e) 10); exact H.
  - destruct (n_blocks e) as [|b [|b' bs]]; exact H.
  - assert (F : z_plain (fst (spec_fun ty x (length ps) z)) = false).
    { unfold spec_fun. rewrite Ez. destruct (visible _ _ _) as [i|].
      - destruct (nth_error (z_decls z) i) as [[n [[m q]|]]|]; try exact H.
        destruct (existsb _ _); exact H.
      - destruct (ty x || _); exact H. }
    destruct (spec_fun ty x (length ps) z) as [z' [q|]]; cbn [fst] in *; [|exact F]. rewrite E. exact F.
  - rewrite E. exact H.
  - destruct r; [exact H|]. destruct (n_blocks e) as [|b [|b' bs]]; exact H.
  - exact H.
Qed.

Lemma plain_run : forall l z, z_plain z = false -> z_plain (fst (spec_run ty l z)) = false.
Proof.
  induction l as [|o l IH]; intros z H; [exact H|]. cbn [spec_run].
  pose proof (plain_mono o z H) as Q. destruct (spec_step ty o z) as [z' [|]]; cbn [fst] in *; auto.
Qed.

Theorem run_refines : forall l s z,
  R s z ->
  match run ty l s with
  | (s', Go) => snd (spec_run ty l z) = true /\ R s' (fst (spec_run ty l z))
  | (s', Fail) => snd (spec_run ty l z) = false /\ R s' (fst (spec_run ty l z))
  | (s', Undef) => z_plain (fst (spec_run ty l z)) = false
  end.
Proof.
  induction l as [|o l IH]; intros s z HR; [split; [reflexivity|exact HR]|]. cbn [run spec_run].
  pose proof (step_refines o s z HR) as S. destruct (step ty o s) as [s' [| |]].
  - destruct S as [S1 S2]. destruct (spec_step ty o z) as [z' b]. cbn [fst snd] in *. subst b. apply IH. exact S2.
  - destruct S as [S1 S2]. destruct (spec_step ty o z) as [z' b]. cbn [fst snd] in *. subst b. auto.
  - pose proof (plain_mono o z S) as Q. destruct (spec_step ty o z) as [z' [|]]; cbn [fst] in *; [|exact Q].
    apply plain_run. exact Q.
Qed.
End Steps.
