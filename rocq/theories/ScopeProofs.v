(** Proofs that the scopes of the compiler refine environments. *)
From Coq Require Import ZArith List Bool Lia PeanoNat Permutation.
From Verif Require Import ScopeModel ScopeSpec.
Import ListNotations.
Open Scope nat_scope.

(* ------------------------------------------------------------------ *)
(** * Trees of scopes *)

Fixpoint sc_ind2 (P : sc -> Prop)
  (H : forall k f u v g c, Forall P c -> P (Sc k f u v g c)) (s : sc) {struct s} : P s :=
  match s with
  | Sc k f u v g c =>
    H k f u v g c
      ((fix go (l : list sc) : Forall P l :=
          match l with
          | [] => Forall_nil P
          | d :: t => Forall_cons d (sc_ind2 P H d) (go t)
          end) c)
  end.

Definition blk {A} (f : sc -> list A) (d : sc) : list A := if is_block d then f d else [].

Lemma preorder_eq : forall k f u v g c,
  preorder (Sc k f u v g c) = v ++ flat_map (blk preorder) c.
Proof.
  intros. reflexivity.
Qed.

Fixpoint own (s : sc) {struct s} : list sym :=
  match s with
  | Sc _ _ _ v g c =>
    (v ++ g) ++ (fix go (l : list sc) : list sym :=
            match l with
            | [] => []
            | d :: t => (if is_block d then own d else []) ++ go t
            end) c
  end.

Lemma own_eq : forall k f u v g c,
  own (Sc k f u v g c) = (v ++ g) ++ flat_map (blk own) c.
Proof. reflexivity. Qed.

Fixpoint tree_ok (s : sc) {struct s} : Prop :=
  match s with
  | Sc _ f _ v g c =>
    Forall (fun y => is_fun y = false) v /\ Forall (fun y => is_fun y = true) g /\
    (fix go (l : list sc) : Prop :=
       match l with
       | [] => True
       | d :: t => (if is_block d
                    then sc_fid d = f /\ tree_ok d /\
                         (sc_unused d = true -> sc_vars d = [] /\ sc_kids d = [])
                    else sc_fid d <> f /\ sc_unused d = false) /\ go t
       end) c
  end.

Definition kid_ok (f : nat) (d : sc) : Prop :=
  if is_block d
  then sc_fid d = f /\ tree_ok d /\ (sc_unused d = true -> sc_vars d = [] /\ sc_kids d = [])
  else sc_fid d <> f /\ sc_unused d = false.

Lemma tree_ok_eq : forall k f u v g c,
  tree_ok (Sc k f u v g c) <->
  Forall (fun y => is_fun y = false) v /\ Forall (fun y => is_fun y = true) g /\
  Forall (kid_ok f) c.
Proof.
  intros. simpl. split; intros (A & B & C); (split; [exact A|split; [exact B|]]).
  - induction c as [|d t IH]; constructor; destruct C; auto.
  - induction c as [|d t IH]; [exact I|]. inversion C; subst. split; [exact H1|apply IH; exact H2].
Qed.

Lemma find_app : forall A (p : A -> bool) l r,
  find p (l ++ r) = match find p l with Some a => Some a | None => find p r end.
Proof.
  induction l as [|a l IH]; intros; simpl; [reflexivity|]. destruct (p a); auto.
Qed.

Lemma find_ext : forall A (p q : A -> bool) l,
  (forall a, In a l -> p a = q a) -> find p l = find q l.
Proof.
  induction l as [|a l IH]; intros H; simpl; [reflexivity|].
  rewrite (H a) by (left; reflexivity). destruct (q a); auto. apply IH. intros; apply H; right; auto.
Qed.

Lemma here_eq : forall x np s,
  tree_ok s -> here x np s = find (fun_match x np) (sc_vars s ++ sc_funs s).
Proof.
  intros x np [k f u v g c] H. apply tree_ok_eq in H. destruct H as (A & _ & _).
  unfold here. simpl. rewrite find_app.
  replace (find (fun_match x np) v) with (find (fun y => Z.eqb (y_name y) x) v); [reflexivity|].
  apply find_ext. intros y Hy. rewrite Forall_forall in A. specialize (A y Hy).
  unfold is_fun in A. unfold fun_match. destruct (y_kind y); [|discriminate].
  destruct np; rewrite andb_true_r; reflexivity.
Qed.

Lemma find_none_iff : forall A (p : A -> bool) l,
  find p l = None <-> forall a, In a l -> p a = false.
Proof.
  intros. split.
  - intros H a Ha. exact (find_none _ _ H _ Ha).
  - induction l as [|a l IH]; intros H; simpl; [reflexivity|].
    rewrite (H a) by (left; reflexivity). apply IH. intros; apply H; right; auto.
Qed.

Lemma up_unfold : forall x np k f u v g c,
  up x np (Sc k f u v g c) =
  match here x np (Sc k f u v g c) with
  | Some y => Some y
  | None =>
      (fix go (l : list sc) : option sym :=
         match l with
         | [] => None
         | d :: t =>
           if Nat.eqb (sc_fid d) f
           then match up x np d with Some y => Some y | None => go t end
           else go t
         end) c
  end.
Proof. reflexivity. Qed.

Lemma up_none : forall x np s,
  tree_ok s -> (up x np s = None <-> forall y, In y (own s) -> fun_match x np y = false).
Proof.
  intros x np s. induction s as [k f u v g c IH] using sc_ind2. intros H.
  rewrite up_unfold, own_eq, here_eq by assumption. cbn [sc_vars sc_funs].
  apply tree_ok_eq in H. destruct H as (_ & _ & C).
  destruct (find (fun_match x np) (v ++ g)) as [y|] eqn:F.
  - split; [discriminate|]. intros H. apply find_some in F. destruct F as [F1 F2].
    rewrite (H y) in F2; [discriminate|]. apply in_or_app. left. exact F1.
  - rewrite find_none_iff in F.
    transitivity (forall y, In y (flat_map (blk own) c) -> fun_match x np y = false).
    + clear F. induction c as [|d t IHt]; [simpl; split; [intros _ y []|reflexivity]|].
      inversion IH; subst. inversion C; subst. unfold kid_ok in H3. cbn [flat_map].
      unfold blk at 1. destruct (is_block d).
      * destruct H3 as (E & K & _). rewrite E, Nat.eqb_refl.
        specialize (H1 K). specialize (IHt H2 H4).
        destruct (up x np d) as [y|] eqn:U.
        -- split; [discriminate|]. intros Q.
           assert (X : Some y = None) by (apply H1; intros z Hz; apply Q; apply in_or_app; left; exact Hz).
           discriminate.
        -- rewrite IHt. split.
           ++ intros Q y Hy. apply in_app_or in Hy. destruct Hy as [Hy|Hy]; auto.
              apply H1; auto.
           ++ intros Q y Hy. apply Q. apply in_or_app. right. exact Hy.
      * destruct H3 as [H3 _]. apply Nat.eqb_neq in H3. rewrite H3. simpl. apply IHt; assumption.
    + split.
      * intros Q y Hy. apply in_app_or in Hy. destruct Hy; auto.
      * intros Q y Hy. apply Q. apply in_or_app. right. exact Hy.
Qed.

(* ------------------------------------------------------------------ *)
(** * Symbols and declarations *)

Definition decl_of (y : sym) : decl :=
  mkd (y_name y) (match y_kind y with KVar _ => None | KFun p f => Some (p, f) end).
Definition Rsym (ds : list decl) (y : sym) : Prop :=
  nth_error ds (y_id y) = Some (decl_of y).

Lemma match_named : forall ds x np y,
  Rsym ds y -> fun_match x np y = named ds x (y_id y) && same_params ds np (y_id y).
Proof.
  intros ds x np y H. unfold Rsym in H. unfold fun_match, named, same_params. rewrite H.
  unfold decl_of. simpl. destruct np; destruct (y_kind y); reflexivity.
Qed.

Lemma sym_is_var : forall ds y, Rsym ds y -> is_var ds (y_id y) = negb (is_fun y).
Proof.
  intros ds y H. unfold is_var, is_fun. rewrite H. unfold decl_of. destruct (y_kind y); reflexivity.
Qed.
Lemma sym_is_fn : forall ds y, Rsym ds y -> is_fn ds (y_id y) = is_fun y.
Proof.
  intros ds y H. unfold is_fn, is_fun. rewrite H. unfold decl_of. destruct (y_kind y); reflexivity.
Qed.

Record Rsc (ds : list decl) (s : sc) (b : list nat) : Prop := mkRsc {
  r_tree : tree_ok s;
  r_vars : map y_id (sc_vars s) = filter (is_var ds) b;
  r_funs : map y_id (sc_funs s) = filter (is_fn ds) b;
  r_own : Forall (Rsym ds) (own s);
  r_range : Forall (fun i => i < length ds) b;
  r_uniq : forall x i j, In i b -> In j b -> named ds x i = true -> named ds x j = true -> i = j;
  r_used : sc_unused s = false }.

Lemma direct_own : forall s y, In y (sc_vars s ++ sc_funs s) -> In y (own s).
Proof. intros [k f u v g c] y H. rewrite own_eq. apply in_or_app. left. exact H. Qed.

Lemma var_or_fn : forall ds i, i < length ds -> is_var ds i = true \/ is_fn ds i = true.
Proof.
  intros ds i H. unfold is_var, is_fn. destruct (nth_error ds i) as [[n [q|]]|] eqn:E; auto.
  apply nth_error_None in E. lia.
Qed.

Lemma block_ids : forall ds s b i,
  Rsc ds s b -> (In i b <-> In i (map y_id (sc_vars s ++ sc_funs s))).
Proof.
  intros ds s b i R. rewrite map_app, (r_vars _ _ _ R), (r_funs _ _ _ R), in_app_iff, !filter_In.
  split.
  - intros H. pose proof (r_range _ _ _ R) as Q. rewrite Forall_forall in Q.
    destruct (var_or_fn ds i (Q i H)); auto.
  - tauto.
Qed.

Lemma here_find : forall ds s b x,
  Rsc ds s b ->
  match here x None s with
  | Some y => In y (sc_vars s ++ sc_funs s) /\ find (named ds x) b = Some (y_id y) /\ Rsym ds y
  | None => find (named ds x) b = None
  end.
Proof.
  intros ds s b x R. rewrite here_eq by apply R.
  pose proof (r_own _ _ _ R) as O. rewrite Forall_forall in O.
  destruct (find (fun_match x None) (sc_vars s ++ sc_funs s)) as [y|] eqn:F.
  - apply find_some in F. destruct F as [F1 F2].
    assert (Ry : Rsym ds y) by (apply O; apply direct_own; exact F1).
    rewrite (match_named ds) in F2 by exact Ry. apply andb_true_iff in F2. destruct F2 as [F2 _].
    split; [exact F1|]. split; [|exact Ry].
    assert (Hb : In (y_id y) b).
    { apply (block_ids ds s b); [exact R|]. apply in_map. exact F1. }
    destruct (find (named ds x) b) as [i|] eqn:G.
    + apply find_some in G. destruct G as [G1 G2]. f_equal. eapply (r_uniq _ _ _ R); eauto.
    + rewrite (find_none _ _ G _ Hb) in F2. discriminate.
  - rewrite find_none_iff in F. apply find_none_iff. intros i Hi.
    apply (block_ids ds s b _ R) in Hi. apply in_map_iff in Hi. destruct Hi as (y & E & Hy).
    subst i. specialize (F y Hy). rewrite (match_named ds) in F by (apply O; apply direct_own; exact Hy).
    unfold same_params in F. rewrite andb_true_r in F. exact F.
Qed.

(* ------------------------------------------------------------------ *)
(** * Environments *)

Definition plain_instr (i : instr) : Prop :=
  match i with
  | StoreGlobal _ | OpRR (AL _) (AT _) | OpRR (AT _) (AL _) => False
  | _ => True
  end.

Record Renv (pl : bool) (nfun : nat) (ds : list decl) (k : skind) (g : list sc)
  (f : fstate) (e : senv) : Prop := mkRenv {
  v_shape : exists bs t, g = bs ++ [t] /\ Forall (fun s => is_block s = true) bs /\
            sc_kind t = k;
  v_kind : k <> SBlock;
  v_blocks : Forall2 (Rsc ds) g (n_blocks e);
  v_fid : Forall (fun s => sc_fid s = fs_fid f) g;
  v_no : fs_fid f = n_no e;
  v_lt : fs_fid f < nfun;
  v_seen : forall i, In i (n_seen e) <-> In i (map y_id (flat_map own g));
  v_vars : n_vars e = fs_locals f;
  v_slot : forall y, In y (flat_map preorder g) ->
           nth_error (fs_locals f) (slot y) = Some (y_id y);
  v_cover : forall i, In i (fs_locals f) <-> In i (map y_id (flat_map preorder g));
  v_len : length (fs_locals f) = length (flat_map preorder g);
  v_nodup : NoDup (fs_locals f);
  v_this : fs_this f = n_this e;
  v_acc : Forall2 (agrees (fs_locals f)) (accesses (fs_code f)) (n_acc e);
  v_funs : forall y p q, In y (flat_map own g) -> y_kind y = KFun p q -> q <> fs_fid f /\ q < nfun;
  v_plain : pl = true -> Forall plain_instr (fs_code f) }.

Inductive Rst (pl : bool) (nfun : nat) (ds : list decl)
  : list sc -> list fstate -> list senv -> Prop :=
| Rst_main : forall g f e, Renv pl nfun ds SMain g f e -> n_base e = 0 -> fs_fid f = 0 ->
    Rst pl nfun ds g [f] [e]
| Rst_fun : forall k g f e st f' fs es,
    Renv pl nfun ds k g f e -> k <> SMain ->
    n_base e = (match k with SMethod => 1 | _ => inner st end) ->
    fs_fid f' <> fs_fid f ->
    Rst pl nfun ds st (f' :: fs) es ->
    Rst pl nfun ds (g ++ st) (f :: f' :: fs) (e :: es).

Definition Rfn (pl : bool) (p : nat * option func) (q : nat * option sfun) : Prop :=
  fst p = fst q /\
  match snd p, snd q with
  | None, None => True
  | Some fn, Some o =>
      pl = true -> length (o_vars o) <= 256 -> faithful fn o
  | _, _ => False
  end.

Record R (s : cst) (z : sst) : Prop := mkR {
  R_next : c_next s = length (z_decls z);
  R_nfun : c_nfun s = z_nfun z;
  R_st : Rst (z_plain z) (c_nfun s) (z_decls z) (c_stack s) (c_fs s) (z_env z);
  R_uniq : NoDup (map y_id (flat_map own (c_stack s)));
  R_done : Forall2 (Rfn (z_plain z)) (c_funs s) (z_done z) }.

(** Searching down the stack. *)
Lemma down_group : forall ds x f g bs st,
  Forall2 (Rsc ds) g bs -> g <> [] -> Forall (fun s => sc_fid s = f) g ->
  (forall p st', st = p :: st' -> sc_fid p <> f) ->
  match down x None (g ++ st) with
  | Some y => visible ds x bs = Some (y_id y) /\ Rsym ds y /\
              exists s, In s g /\ In y (sc_vars s ++ sc_funs s)
  | None => visible ds x bs = None
  end.
Proof.
  intros ds x f g bs st H. induction H as [|s b g bs HR Hrest IH]; intros Hg Hf Hst.
  - contradiction Hg; reflexivity.
  - inversion Hf as [|? ? Hs Hf']; subst. cbn [app down visible].
    pose proof (here_find ds s b x HR) as HH.
    destruct (here x None s) as [y|].
    + destruct HH as (A & B & C). rewrite B. split; [reflexivity|]. split; [exact C|].
      exists s. split; [left; reflexivity|exact A].
    + rewrite HH. destruct g as [|s' g'].
      * cbn [app]. inversion Hrest; subst. destruct st as [|p st']; [reflexivity|].
        assert (Q : sc_fid p <> sc_fid s) by (eapply Hst; reflexivity).
        apply Nat.eqb_neq in Q. rewrite Q. reflexivity.
      * cbn [app]. inversion Hf' as [|? ? Hs' _]; subst.
        rewrite Hs', Nat.eqb_refl. change (s' :: g' ++ st) with ((s' :: g') ++ st).
        assert (N : s' :: g' <> []) by discriminate.
        specialize (IH N Hf' Hst). destruct (down x None ((s' :: g') ++ st)) as [y|].
        -- destruct IH as (A & B & t & C & D). split; [exact A|]. split; [exact B|].
           exists t. split; [right; exact C|exact D].
        -- exact IH.
Qed.

Lemma down_params : forall x np st,
  Forall tree_ok st -> down x None st = None -> down x np st = None.
Proof.
  intros x np st. induction st as [|s r IH]; intros T H; [reflexivity|].
  inversion T as [|? ? Ts Tr]; subst. cbn [down] in *.
  rewrite here_eq in * by assumption.
  destruct (find (fun_match x None) (sc_vars s ++ sc_funs s)) eqn:F; [discriminate|].
  assert (F' : find (fun_match x np) (sc_vars s ++ sc_funs s) = None).
  { rewrite find_none_iff in *. intros y Hy. specialize (F y Hy).
    unfold fun_match in *. rewrite andb_true_r in F. rewrite F. reflexivity. }
  rewrite F'. destruct r as [|p r']; [reflexivity|].
  destruct (Nat.eqb (sc_fid p) (sc_fid s)); [apply IH; assumption|reflexivity].
Qed.

Lemma group_nonempty : forall pl n ds k g f e, Renv pl n ds k g f e -> g <> [].
Proof.
  intros. destruct (v_shape _ _ _ _ _ _ _ H) as (bs & t & E & _). subst g.
  destruct bs; discriminate.
Qed.

Lemma Rst_hd : forall pl n ds st fs es,
  Rst pl n ds st fs es ->
  exists k g st' f fs' e es',
    st = g ++ st' /\ fs = f :: fs' /\ es = e :: es' /\ Renv pl n ds k g f e /\
    (forall p r, st' = p :: r -> sc_fid p <> fs_fid f) /\
    (fs' = [] <-> es' = []) /\ (fs' = [] <-> st' = []) /\ (fs' = [] <-> k = SMain).
Proof.
  intros pl n ds st fs es H. destruct H as [g f e H B F0 | k g f e st f' fs es H K B N Hr].
  - exists SMain, g, [], f, [], e, []. rewrite app_nil_r.
    refine (conj eq_refl (conj eq_refl (conj eq_refl (conj H _)))).
    split; [intros; discriminate|]. repeat split; auto.
  - assert (X : exists p r, st = p :: r /\ sc_fid p = fs_fid f' /\ es <> []).
    { inversion Hr as [g0 f0 e0 H0|k0 g0 f0 e0 st0 f0' fs0 es0 H0]; subst.
      - pose proof (group_nonempty _ _ _ _ _ _ _ H0) as G. destruct st as [|p r]; [congruence|].
        exists p, r. split; [reflexivity|]. split; [|discriminate].
        pose proof (v_fid _ _ _ _ _ _ _ H0) as Q. inversion Q; assumption.
      - pose proof (group_nonempty _ _ _ _ _ _ _ H0) as G. destruct g0 as [|p r]; [congruence|].
        exists p, (r ++ st0). split; [reflexivity|]. split; [|discriminate].
        pose proof (v_fid _ _ _ _ _ _ _ H0) as Q. inversion Q; assumption. }
    destruct X as (p & r & Est & Ep & Ees).
    exists k, g, st, f, (f' :: fs), e, es.
    refine (conj eq_refl (conj eq_refl (conj eq_refl (conj H _)))).
    split; [intros; congruence|]. repeat split; intros; congruence.
Qed.

Lemma F2_length : forall A B (P : A -> B -> Prop) l l', Forall2 P l l' -> length l = length l'.
Proof. intros. induction H; simpl; auto. Qed.

Lemma inner_group : forall g r,
  (forall s, In s g -> is_block s = true) -> inner (g ++ r) = length g + inner r.
Proof.
  induction g as [|s g IH]; intros r H; [reflexivity|]. cbn [app inner length].
  assert (E : sc_kind s = SBlock).
  { specialize (H s (or_introl eq_refl)). unfold is_block in H. destruct (sc_kind s); congruence. }
  rewrite E, IH by (intros; apply H; right; assumption). reflexivity.
Qed.

Lemma inner_Rst : forall pl n ds st fs e es,
  Rst pl n ds st fs (e :: es) -> inner st = depth e.
Proof.
  intros pl n ds st fs e es H. inversion H as [g f e0 He B F0 | k g f e0 st0 f' fs0 es0 He K B N Hr]; subst.
  - destruct (v_shape _ _ _ _ _ _ _ He) as (bs & t & E & Hb & Hk).
    pose proof (F2_length _ _ _ _ _ (v_blocks _ _ _ _ _ _ _ He)) as L. unfold depth. rewrite <- L, B.
    subst st. rewrite inner_group by (apply Forall_forall; exact Hb).
    cbn [inner]. rewrite Hk, app_length. simpl. lia.
  - destruct (v_shape _ _ _ _ _ _ _ He) as (bs & t & E & Hb & Hk).
    pose proof (F2_length _ _ _ _ _ (v_blocks _ _ _ _ _ _ _ He)) as L. unfold depth. rewrite <- L, B.
    subst g. rewrite <- app_assoc, inner_group by (apply Forall_forall; exact Hb).
    cbn [app inner]. rewrite Hk, app_length. simpl.
    pose proof (v_kind _ _ _ _ _ _ _ He) as Nb.
    destruct k; try congruence; lia.
Qed.

(** Looking a name up. *)
Lemma down_R : forall s z x,
  R s z ->
  match z_env z with
  | [] => False
  | e :: _ =>
    match down x None (c_stack s) with
    | Some y => visible (z_decls z) x (n_blocks e) = Some (y_id y) /\ Rsym (z_decls z) y
    | None => visible (z_decls z) x (n_blocks e) = None
    end
  end.
Proof.
  intros s z x HR. destruct (Rst_hd _ _ _ _ _ _ (R_st _ _ HR))
    as (k & g & st' & f & fs' & e & es' & E1 & E2 & E3 & He & Hn & _).
  rewrite E3, E1.
  pose proof (down_group (z_decls z) x (fs_fid f) g (n_blocks e) st'
    (v_blocks _ _ _ _ _ _ _ He) (group_nonempty _ _ _ _ _ _ _ He) (v_fid _ _ _ _ _ _ _ He) Hn) as D.
  destruct (down x None (g ++ st')) as [y|]; [|exact D].
  destruct D as (A & B & _). split; assumption.
Qed.

Lemma Forall2_In : forall A B (P : A -> B -> Prop) l l' a,
  Forall2 P l l' -> In a l -> exists b, In b l' /\ P a b.
Proof.
  intros A B P l l' a H. induction H; intros Hin; [destruct Hin|].
  destruct Hin as [E|Hin]; [subst; exists y; split; [left; reflexivity|assumption]|].
  destruct (IHForall2 Hin) as (b & ? & ?). exists b. split; [right|]; assumption.
Qed.

Lemma Rst_tree : forall pl n ds st fs es, Rst pl n ds st fs es -> Forall tree_ok st.
Proof.
  intros pl n ds st fs es H. induction H as [g f e He B F0 | k g f e st f' fs es He K B N Hr IH].
  - apply Forall_forall. intros s Hs. destruct (Forall2_In _ _ _ _ _ _ (v_blocks _ _ _ _ _ _ _ He) Hs) as (b & _ & Q).
    apply Q.
  - apply Forall_app. split; [|exact IH]. apply Forall_forall. intros s Hs.
    destruct (Forall2_In _ _ _ _ _ _ (v_blocks _ _ _ _ _ _ _ He) Hs) as (b & _ & Q). apply Q.
Qed.

(** The check made before a registration. *)
Lemma up_down_R : forall s z x np,
  R s z ->
  (np = None \/ down x None (c_stack s) = None) ->
  match z_env z with
  | [] => False
  | e :: _ => (up_down x np (c_stack s) = None <-> clash (z_decls z) x np e = false)
  end.
Proof.
  intros s z x np HR Hnp. pose proof (down_R s z x HR) as HD.
  pose proof (Rst_tree _ _ _ _ _ _ (R_st _ _ HR)) as HT.
  destruct (Rst_hd _ _ _ _ _ _ (R_st _ _ HR))
    as (k & g & st' & f & fs' & e & es' & E1 & E2 & E3 & He & Hn & _).
  rewrite E3 in *. unfold clash.
  destruct (down x None (c_stack s)) as [y|] eqn:D.
  - destruct HD as [V _]. rewrite V. split; [|discriminate]. destruct Hnp as [->|Hnp]; [|discriminate].
    intros U. exfalso. rewrite E1 in D, U.
    pose proof (group_nonempty _ _ _ _ _ _ _ He) as G. destruct g as [|t g']; [congruence|].
    cbn [app up_down down] in *. destruct (here x None t) eqn:H0; [discriminate|].
    destruct (g' ++ st') as [|p r]; [discriminate|].
    destruct (Nat.eqb (sc_fid p) (sc_fid t)); [congruence|discriminate].
  - rewrite HD. rewrite E1 in *.
    pose proof (group_nonempty _ _ _ _ _ _ _ He) as G. destruct g as [|t g']; [congruence|].
    pose proof (v_blocks _ _ _ _ _ _ _ He) as HB. inversion HB as [|? b0 ? bs0 Rt Rg]; subst.
    pose proof (v_fid _ _ _ _ _ _ _ He) as HF. inversion HF as [|? ? Ft Fg]; subst.
    cbn [app up_down].
    assert (Hh : here x np t = None).
    { cbn [app down] in D. rewrite here_eq in * by apply Rt.
      destruct (find (fun_match x None) (sc_vars t ++ sc_funs t)) eqn:F; [discriminate|].
      rewrite find_none_iff in *. intros y Hy. specialize (F y Hy).
      unfold fun_match in *. rewrite andb_true_r in F. rewrite F. reflexivity. }
    rewrite Hh. destruct g' as [|t' g''].
    + (* outermost block of the function *)
      inversion Rg; subst.
      assert (U : up x np t = None <->
                  existsb (fun i => named (z_decls z) x i && same_params (z_decls z) np i) (n_seen e) = false).
      { rewrite up_none by apply Rt. pose proof (v_seen _ _ _ _ _ _ _ He) as S.
        cbn [flat_map] in S. rewrite app_nil_r in S.
        pose proof (r_own _ _ _ Rt) as O. rewrite Forall_forall in O. split.
        - intros Q. rewrite <- not_true_iff_false, existsb_exists. intros (i & Hi & Hm).
          apply S in Hi. apply in_map_iff in Hi. destruct Hi as (y & <- & Hy).
          rewrite <- match_named in Hm by (apply O; exact Hy). rewrite Q in Hm by exact Hy. discriminate.
        - intros Q y Hy. rewrite (match_named (z_decls z)) by (apply O; exact Hy).
          apply not_true_iff_false. intros Hm. apply not_true_iff_false in Q. apply Q.
          apply existsb_exists. exists (y_id y). split; [|exact Hm].
          apply S. apply in_map. exact Hy. }
      cbn [app]. destruct st' as [|p r]; [exact U|].
      assert (Q : sc_fid p <> fs_fid f) by (eapply Hn; reflexivity).
      rewrite Ft. apply Nat.eqb_neq in Q. rewrite Q. exact U.
    + inversion Rg as [|? b1 ? bs1 Rt' Rg']; subst. inversion Fg as [|? ? Ft' Fg']; subst.
      cbn [app]. rewrite Ft, Ft', Nat.eqb_refl.
      change (match here x None t with
              | Some y => Some y
              | None => if Nat.eqb (sc_fid t') (sc_fid t) then down x None (t' :: g'' ++ st') else None
              end = None) in D.
      inversion HT as [|? ? HT1 HT2]; subst.
      destruct (here x None t); [discriminate|]. rewrite Ft, Ft', Nat.eqb_refl in D.
      rewrite (down_params x np (t' :: g'' ++ st') HT2 D). split; reflexivity.
Qed.

(* ------------------------------------------------------------------ *)
(** * Growing the declarations *)

Lemma Forall2_impl : forall A B (P Q : A -> B -> Prop) l l',
  (forall a b, P a b -> Q a b) -> Forall2 P l l' -> Forall2 Q l l'.
Proof. intros A B P Q l l' H F. induction F; constructor; auto. Qed.

Lemma preorder_own : forall s y, In y (preorder s) -> In y (own s).
Proof.
  intros s. induction s as [k f u v g c IH] using sc_ind2. intros y.
  rewrite preorder_eq, own_eq. intros H. apply in_app_or in H. apply in_or_app.
  destruct H as [H|H].
  - left. apply in_or_app. left. exact H.
  - right. apply in_flat_map in H. destruct H as (d & Hd & Hy). apply in_flat_map.
    exists d. split; [exact Hd|]. unfold blk in *. destruct (is_block d); [|destruct Hy].
    rewrite Forall_forall in IH. apply IH; assumption.
Qed.

Record ext (ds ds' : list decl) : Prop := mkext {
  x_len : length ds <= length ds';
  x_same : forall i, i < length ds ->
    (forall x, named ds' x i = named ds x i) /\
    is_var ds' i = is_var ds i /\ is_fn ds' i = is_fn ds i }.

Lemma ext_app : forall ds d, ext ds (ds ++ [d]).
Proof.
  intros ds d. constructor.
  - rewrite app_length. lia.
  - intros i Hi. unfold named, is_var, is_fn. rewrite nth_error_app1 by assumption.
    repeat split; reflexivity.
Qed.

Lemma filter_same : forall A (p q : A -> bool) l,
  (forall a, In a l -> p a = q a) -> filter p l = filter q l.
Proof.
  induction l as [|a l IH]; intros H; [reflexivity|]. simpl.
  rewrite (H a) by (left; reflexivity). rewrite IH by (intros; apply H; right; assumption).
  reflexivity.
Qed.

Lemma Rsc_ext : forall ds ds' s b,
  Rsc ds s b -> ext ds ds' -> Forall (Rsym ds') (own s) -> Rsc ds' s b.
Proof.
  intros ds ds' s b [A B C D E F U0] [L X] O.
  rewrite Forall_forall in E.
  constructor; auto.
  - rewrite B. apply filter_same. intros i Hi. symmetry. apply X. auto.
  - rewrite C. apply filter_same. intros i Hi. symmetry. apply X. auto.
  - apply Forall_forall. intros i Hi. specialize (E i Hi). lia.
  - intros x i j Hi Hj. destruct (X i (E i Hi)) as (Xi & _). destruct (X j (E j Hj)) as (Xj & _).
    rewrite Xi, Xj. apply F; assumption.
Qed.

Lemma Renv_ext : forall pl n ds k g f e n' ds',
  Renv pl n ds k g f e -> ext ds ds' -> n <= n' -> Forall (Rsym ds') (flat_map own g) ->
  Renv pl n' ds' k g f e.
Proof.
  intros pl n ds k g f e n' ds' H X N O.
  destruct H; constructor; auto.
  - rewrite Forall_forall in O. clear - v_blocks0 X O.
    induction v_blocks0; constructor.
    + eapply Rsc_ext; eauto. apply Forall_forall. intros y0 Hy. apply O.
      simpl. apply in_or_app. left. exact Hy.
    + apply IHv_blocks0. intros y0 Hy. apply O. simpl. apply in_or_app. right. exact Hy.
  - lia.
  - intros y p q Hy E. destruct (v_funs0 y p q Hy E). split; [assumption|lia].
Qed.

Lemma Rst_ext : forall pl n ds st fs es n' ds',
  Rst pl n ds st fs es -> ext ds ds' -> n <= n' -> Forall (Rsym ds') (flat_map own st) ->
  Rst pl n' ds' st fs es.
Proof.
  intros pl n ds st fs es n' ds' H X N. induction H; intros O.
  - apply Rst_main; [eapply Renv_ext; eauto|assumption|assumption].
  - rewrite flat_map_app in O. apply Forall_app in O. destruct O as [O1 O2].
    eapply Rst_fun; eauto. eapply Renv_ext; eauto.
Qed.

Lemma group_syms : forall ds g bs, Forall2 (Rsc ds) g bs -> Forall (Rsym ds) (flat_map own g).
Proof.
  intros ds g bs H. induction H; simpl; [constructor|]. apply Forall_app. split; [apply H|assumption].
Qed.

Lemma Rst_syms : forall pl n ds st fs es,
  Rst pl n ds st fs es -> Forall (Rsym ds) (flat_map own st).
Proof.
  intros pl n ds st fs es H. induction H.
  - eapply group_syms. apply H.
  - rewrite flat_map_app. apply Forall_app. split; [eapply group_syms; apply H|assumption].
Qed.

Lemma Rsym_lt : forall ds y, Rsym ds y -> y_id y < length ds.
Proof. intros ds y H. apply nth_error_Some. unfold Rsym in H. congruence. Qed.

Lemma Rsym_app : forall ds d y, Rsym ds y -> Rsym (ds ++ [d]) y.
Proof.
  intros ds d y H. unfold Rsym. rewrite nth_error_app1 by (apply Rsym_lt; exact H). exact H.
Qed.

Lemma Rsyms_app : forall ds d l, Forall (Rsym ds) l -> Forall (Rsym (ds ++ [d])) l.
Proof. intros. eapply Forall_impl; [|eassumption]. intros; apply Rsym_app; assumption. Qed.

(** Adding a symbol to a scope. *)
Definition add_sym (y : sym) (s : sc) : sc := if is_fun y then add_fun y s else add_var y s.

Lemma add_sym_own : forall y s z, In z (own (add_sym y s)) <-> z = y \/ In z (own s).
Proof.
  intros y [k f u v g c] z. unfold add_sym.
  destruct (is_fun y); cbn [add_fun add_var]; rewrite !own_eq, !in_app_iff; simpl;
    intuition congruence.
Qed.

Lemma add_sym_own_perm : forall y s, Permutation (own (add_sym y s)) (y :: own s).
Proof.
  intros y [k f u v g c]. unfold add_sym.
  destruct (is_fun y); cbn [add_fun add_var]; rewrite !own_eq; symmetry.
  - rewrite (app_assoc v g [y]).
    rewrite <- (app_assoc (v ++ g) [y]). cbn [app]. apply Permutation_middle.
  - rewrite <- !app_assoc. cbn [app]. apply Permutation_middle.
Qed.

Lemma add_var_preorder : forall y s, Permutation (preorder (add_var y s)) (y :: preorder s).
Proof.
  intros y [k f u v g c]. cbn [add_var]. rewrite !preorder_eq. symmetry.
  rewrite <- app_assoc. cbn [app]. apply Permutation_middle.
Qed.

Lemma add_fun_preorder : forall y s, preorder (add_fun y s) = preorder s.
Proof. intros y [k f u v g c]. reflexivity. Qed.

Lemma Rsc_add : forall ds s b y,
  Rsc ds s b -> y_id y = length ds -> find (named ds (y_name y)) b = None ->
  Rsc (ds ++ [decl_of y]) (add_sym y s) (b ++ [length ds]).
Proof.
  intros ds s b y HR Hy Hn.
  assert (X : ext ds (ds ++ [decl_of y])) by apply ext_app.
  assert (Ry : Rsym (ds ++ [decl_of y]) y).
  { unfold Rsym. rewrite Hy, nth_error_app2, Nat.sub_diag by lia. reflexivity. }
  assert (HR' : Rsc (ds ++ [decl_of y]) s b).
  { eapply Rsc_ext; eauto. apply Rsyms_app. apply HR. }
  constructor.
  - pose proof (r_tree _ _ _ HR) as T. destruct s as [k f u v g c]. rewrite tree_ok_eq in T.
    destruct T as (T1 & T2 & T3). unfold add_sym.
    destruct (is_fun y) eqn:K; cbn [add_fun add_var]; apply tree_ok_eq; repeat split; auto;
      apply Forall_app; split; auto.
  - rewrite filter_app, <- (r_vars _ _ _ HR'). simpl. rewrite <- Hy, (sym_is_var _ _ Ry).
    destruct s as [k f u v g c]. unfold add_sym. destruct (is_fun y); cbn [add_fun add_var sc_vars negb].
    + rewrite app_nil_r. reflexivity.
    + rewrite map_app. reflexivity.
  - rewrite filter_app, <- (r_funs _ _ _ HR'). simpl. rewrite <- Hy, (sym_is_fn _ _ Ry).
    destruct s as [k f u v g c]. unfold add_sym. destruct (is_fun y); cbn [add_fun add_var sc_funs].
    + rewrite map_app. reflexivity.
    + rewrite app_nil_r. reflexivity.
  - apply Forall_forall. intros z Hz. apply add_sym_own in Hz. destruct Hz as [->|Hz]; [exact Ry|].
    pose proof (r_own _ _ _ HR') as O. rewrite Forall_forall in O. auto.
  - apply Forall_app. split; [apply HR'|]. constructor; [|constructor].
    rewrite app_length. simpl. lia.
  - intros x i j Hi Hj Ni Nj.
    assert (G : forall i, In i b -> named (ds ++ [decl_of y]) x (length ds) = true ->
                 named (ds ++ [decl_of y]) x i = true -> False).
    { intros i0 Hi0 N1 N2. pose proof (r_range _ _ _ HR) as Rg. rewrite Forall_forall in Rg.
      destruct (x_same _ _ X i0 (Rg i0 Hi0)) as (S & _). rewrite S in N2.
      rewrite find_none_iff in Hn. specialize (Hn i0 Hi0).
      unfold named in N1. rewrite nth_error_app2, Nat.sub_diag in N1 by lia. simpl in N1.
      apply Z.eqb_eq in N1. rewrite N1 in Hn. congruence. }
    apply in_app_or in Hi. apply in_app_or in Hj.
    destruct Hi as [Hi|[Hi|[]]]; destruct Hj as [Hj|[Hj|[]]]; subst.
    + eapply (r_uniq _ _ _ HR'); eauto.
    + exfalso. eapply (G i); eauto.
    + exfalso. eapply (G j); eauto.
    + reflexivity.
  - pose proof (r_used _ _ _ HR) as U0. destruct s as [k f u v g c]. unfold add_sym.
    destruct (is_fun y); exact U0.
Qed.

Lemma agrees_app : forall l d a v, agrees l a v -> agrees (l ++ [d]) a v.
Proof.
  intros l d a v H. destruct a, v; simpl in *; auto;
    (rewrite nth_error_app1; [assumption|apply nth_error_Some; congruence]).
Qed.

Lemma sc_fid_add : forall y s, sc_fid (add_sym y s) = sc_fid s.
Proof. intros y [k f u v g c]. unfold add_sym. destruct (is_fun y); reflexivity. Qed.
Lemma sc_kind_add : forall y s, sc_kind (add_sym y s) = sc_kind s.
Proof. intros y [k f u v g c]. unfold add_sym. destruct (is_fun y); reflexivity. Qed.

Definition add_env (y : sym) (e : senv) (i : nat) : senv :=
  mkse (n_no e) (n_base e) (put_decl i (n_blocks e)) (n_seen e ++ [i])
    (if is_fun y then n_vars e else n_vars e ++ [i]) (n_this e) (n_acc e).
Definition add_fs (y : sym) (f : fstate) : fstate :=
  mkfs (fs_fid f) (fs_this f) (if is_fun y then fs_locals f else fs_locals f ++ [y_id y])
    (fs_code f).

Lemma shape_hd : forall k t t' g,
  sc_kind t' = sc_kind t ->
  (exists bs r, t :: g = bs ++ [r] /\ Forall (fun s => is_block s = true) bs /\ sc_kind r = k) ->
  (exists bs r, t' :: g = bs ++ [r] /\ Forall (fun s => is_block s = true) bs /\ sc_kind r = k).
Proof.
  intros k t t' g E (bs & r & H1 & H2 & H3). destruct bs as [|b bs].
  - simpl in H1. inversion H1; subst. exists [], t'. repeat split; auto.
  - simpl in H1. inversion H1; subst. inversion H2; subst. exists (t' :: bs), r.
    split; [reflexivity|]. split; [|reflexivity]. constructor; [|assumption].
    unfold is_block in *. rewrite E. assumption.
Qed.

Lemma Renv_add : forall pl n ds k t g f e y,
  Renv pl n ds k (t :: g) f e -> y_id y = length ds ->
  find (named ds (y_name y)) (hd [] (n_blocks e)) = None ->
  (forall m, y_kind y = KVar m -> m = length (fs_locals f)) ->
  (forall p q, y_kind y = KFun p q -> q = n) ->
  Renv pl (if is_fun y then S n else n) (ds ++ [decl_of y]) k (add_sym y t :: g) (add_fs y f)
    (add_env y e (length ds)).
Proof.
  intros pl n ds k t g f e y H Hy Hn Hv Hf.
  assert (N : n <= if is_fun y then S n else n) by (destruct (is_fun y); lia).
  pose proof (v_blocks _ _ _ _ _ _ _ H) as HB. inversion HB as [|? b ? bs Rt Rg Eb Ebs]; subst.
  rewrite <- Ebs in Hn. simpl in Hn.
  assert (X : ext ds (ds ++ [decl_of y])) by apply ext_app.
  pose proof (group_syms _ _ _ HB) as HS.
  assert (Hlt : forall i, In i (fs_locals f) -> i < length ds).
  { intros i Hi. apply (v_cover _ _ _ _ _ _ _ H) in Hi. apply in_map_iff in Hi.
    destruct Hi as (z & <- & Hz). rewrite Forall_forall in HS. apply Rsym_lt. apply HS.
    apply in_flat_map in Hz. destruct Hz as (s & Hs & Hz). apply in_flat_map. exists s.
    split; [exact Hs|]. apply preorder_own. exact Hz. }
  destruct H. constructor; unfold add_fs, add_env; cbn [fs_fid fs_this fs_locals fs_code
     n_no n_base n_blocks n_seen n_vars n_this n_acc]; auto.
  - eapply shape_hd; [|exact v_shape0]. apply sc_kind_add.
  - rewrite <- Ebs. simpl. constructor.
    + apply Rsc_add; assumption.
    + clear - Rg X HS. simpl in HS. apply Forall_app in HS. destruct HS as [_ HS].
      apply (Rsyms_app _ (decl_of y)) in HS. revert HS. induction Rg; intros HS; constructor.
      * eapply Rsc_ext; eauto. simpl in HS. apply Forall_app in HS. apply HS.
      * apply IHRg. simpl in HS. apply Forall_app in HS. apply HS.
  - inversion v_fid0; subst. constructor; [|assumption]. rewrite sc_fid_add. assumption.
  - lia.
  - intros i. rewrite in_app_iff, v_seen0. cbn [flat_map]. rewrite !map_app, !in_app_iff.
    rewrite !in_map_iff. simpl. split.
    + intros [[(z & E & Hz)|Q]|[E|[]]]; auto.
      * left. exists z. split; [exact E|]. apply add_sym_own. right. exact Hz.
      * left. exists y. split; [congruence|]. apply add_sym_own. left. reflexivity.
    + intros [(z & E & Hz)|Q]; auto. apply add_sym_own in Hz. destruct Hz as [->|Hz].
      * right. left. congruence.
      * left. left. exists z. split; assumption.
  - destruct (is_fun y); [assumption|]. rewrite v_vars0, Hy. reflexivity.
  - intros z Hz. cbn [flat_map] in Hz. apply in_app_or in Hz.
    unfold add_sym in Hz. destruct (is_fun y) eqn:K.
    + rewrite add_fun_preorder in Hz. apply v_slot0. cbn [flat_map]. apply in_or_app. exact Hz.
    + destruct Hz as [Hz|Hz].
      * apply (Permutation_in _ (add_var_preorder y t)) in Hz. destruct Hz as [<-|Hz].
        -- unfold slot. unfold is_fun in K. destruct (y_kind y) eqn:Ky; [|discriminate].
           rewrite (Hv _ eq_refl). rewrite nth_error_app2, Nat.sub_diag by lia. reflexivity.
        -- rewrite nth_error_app1; [|apply nth_error_Some; rewrite v_slot0; [discriminate|]];
             try (apply v_slot0); cbn [flat_map]; apply in_or_app; left; exact Hz.
      * rewrite nth_error_app1; [|apply nth_error_Some; rewrite v_slot0; [discriminate|]];
          try (apply v_slot0); cbn [flat_map]; apply in_or_app; right; exact Hz.
  - intros i. unfold add_sym. destruct (is_fun y) eqn:K.
    + cbn [flat_map]. rewrite add_fun_preorder. apply v_cover0.
    + rewrite in_app_iff, v_cover0. cbn [flat_map]. rewrite !map_app, !in_app_iff, !in_map_iff.
      simpl. split.
      * intros [[(z & E & Hz)|Q]|[E|[]]]; auto.
        -- left. exists z. split; [exact E|]. eapply Permutation_in; [symmetry; apply add_var_preorder|].
           right. exact Hz.
        -- left. exists y. split; [exact E|]. eapply Permutation_in; [symmetry; apply add_var_preorder|].
           left. reflexivity.
      * intros [(z & E & Hz)|Q]; auto. apply (Permutation_in _ (add_var_preorder y t)) in Hz.
        destruct Hz as [<-|Hz]; [auto|]. left. left. exists z. split; assumption.
  - unfold add_sym. destruct (is_fun y) eqn:K.
    + cbn [flat_map]. rewrite add_fun_preorder. apply v_len0.
    + rewrite app_length, v_len0. cbn [flat_map]. rewrite !app_length.
      rewrite (Permutation_length (add_var_preorder y t)). simpl. lia.
  - destruct (is_fun y) eqn:K; [assumption|].
    apply (Permutation_NoDup (Permutation_cons_append _ _)). constructor; [|assumption].
    intros Q. specialize (Hlt _ Q). lia.
  - destruct (is_fun y); [assumption|]. eapply Forall2_impl; [|eassumption].
    intros. apply agrees_app. assumption.
  - intros z p q Hz Ez. cbn [flat_map] in Hz. apply in_app_or in Hz.
    assert (O : In z (flat_map own (t :: g)) \/ z = y).
    { cbn [flat_map]. rewrite in_app_iff. destruct Hz as [Hz|Hz]; [|auto].
      apply add_sym_own in Hz. tauto. }
    destruct O as [O| ->].
    + destruct (v_funs0 z p q O Ez). split; [assumption|lia].
    + rewrite (Hf _ _ Ez). unfold is_fun. rewrite Ez. split; lia.
Qed.

(* ------------------------------------------------------------------ *)
(** * The function being compiled *)

Lemma Renv_pl : forall pl pl' n ds k g f e,
  Renv pl n ds k g f e -> (pl' = true -> pl = true) -> Renv pl' n ds k g f e.
Proof. intros pl pl' n ds k g f e H P. destruct H; constructor; auto. Qed.

Lemma Rst_pl : forall pl pl' n ds st fs es,
  Rst pl n ds st fs es -> (pl' = true -> pl = true) -> Rst pl' n ds st fs es.
Proof.
  intros pl pl' n ds st fs es H P. induction H.
  - apply Rst_main; [eapply Renv_pl; eauto|assumption|assumption].
  - eapply Rst_fun; eauto. eapply Renv_pl; eauto.
Qed.

Lemma Rst_open : forall pl n ds st fs es,
  Rst pl n ds st fs es ->
  exists k t g st' f fs' e es',
    st = t :: g ++ st' /\ fs = f :: fs' /\ es = e :: es' /\ Renv pl n ds k (t :: g) f e /\
    (k = SMain <-> es' = []) /\ (fs' = [] <-> es' = []) /\
    forall pl' n' ds' g2 f2 e2,
      Renv pl' n' ds' k g2 f2 e2 -> fs_fid f2 = fs_fid f -> n_base e2 = n_base e ->
      ext ds ds' -> n <= n' -> (pl' = true -> pl = true) ->
      Forall (Rsym ds') (flat_map own st') ->
      Rst pl' n' ds' (g2 ++ st') (f2 :: fs') (e2 :: es').
Proof.
  intros pl n ds st fs es H. destruct H as [g f e H B F0 | k g f e st f' fs es H K B N Hr].
  - pose proof (group_nonempty _ _ _ _ _ _ _ H) as G. destruct g as [|t g]; [congruence|].
    exists SMain, t, g, [], f, [], e, []. rewrite app_nil_r.
    refine (conj eq_refl (conj eq_refl (conj eq_refl (conj H _)))).
    split; [tauto|]. split; [tauto|]. intros. rewrite app_nil_r. apply Rst_main; [assumption|congruence|congruence].
  - pose proof (group_nonempty _ _ _ _ _ _ _ H) as G. destruct g as [|t g]; [congruence|].
    exists k, t, g, st, f, (f' :: fs), e, es.
    refine (conj eq_refl (conj eq_refl (conj eq_refl (conj H _)))).
    assert (Q : es <> []) by (inversion Hr; discriminate).
    split; [split; intros; congruence|]. split; [split; intros; congruence|].
    intros. eapply Rst_fun; eauto; try congruence.
    eapply Rst_ext; [eapply Rst_pl; eauto|eassumption|assumption|assumption].
Qed.

Lemma ext_refl : forall ds, ext ds ds.
Proof. intros. constructor; auto. Qed.

Lemma Rfn_pl : forall pl pl' p q, Rfn pl p q -> (pl' = true -> pl = true) -> Rfn pl' p q.
Proof.
  intros pl pl' [i a] [j b] [E H] P. split; [exact E|]. simpl in *.
  destruct a, b; auto.
Qed.
Lemma Rfns_pl : forall pl pl' l m,
  Forall2 (Rfn pl) l m -> (pl' = true -> pl = true) -> Forall2 (Rfn pl') l m.
Proof. intros. eapply Forall2_impl; [|eassumption]. intros. eapply Rfn_pl; eauto. Qed.

Lemma Rfns_set : forall pl l m i v w,
  Forall2 (Rfn pl) l m -> Rfn pl (i, v) (i, w) ->
  Forall2 (Rfn pl) (set_func l i v) (set_done m i w).
Proof.
  intros pl l m i v w H Hv. unfold set_func, set_done. constructor; [exact Hv|].
  induction H as [|[a p] [b q] l m Hh Ht IH]; [constructor|]. simpl.
  destruct Hh as [E Hh]. simpl in E. subst b.
  destruct (Nat.eqb a i); simpl; [exact IH|]. constructor; [split; [reflexivity|exact Hh]|exact IH].
Qed.

Lemma R_env : forall s z, R s z -> exists e es, z_env z = e :: es.
Proof.
  intros s z H. destruct (Rst_hd _ _ _ _ _ _ (R_st _ _ H)) as (k & g & st' & f & fs' & e & es' & _ & _ & E & _).
  eauto.
Qed.

(** Declaring a symbol in the innermost scope. *)
Lemma R_add : forall s z y e es,
  R s z -> z_env z = e :: es -> y_id y = length (z_decls z) ->
  find (named (z_decls z) (y_name y)) (hd [] (n_blocks e)) = None ->
  (forall m, y_kind y = KVar m -> m = match c_fs s with f :: _ => length (fs_locals f) | [] => 0 end) ->
  (forall p q, y_kind y = KFun p q -> q = c_nfun s) ->
  exists t st f fs, c_stack s = t :: st /\ c_fs s = f :: fs /\
  let n := if is_fun y then S (c_nfun s) else c_nfun s in
  Rst (z_plain z) n (z_decls z ++ [decl_of y]) (add_sym y t :: st) (add_fs y f :: fs)
    (add_env y e (length (z_decls z)) :: es) /\
  NoDup (map y_id (flat_map own (add_sym y t :: st))).
Proof.
  intros s z y e es HR Ez Hy Hn Hv Hf.
  destruct (Rst_open _ _ _ _ _ _ (R_st _ _ HR))
    as (k & t & g & st' & f & fs' & e' & es' & E1 & E2 & E3 & He & _ & _ & Hcl).
  rewrite Ez in E3. inversion E3; subst e' es'. clear E3.
  exists t, (g ++ st'), f, fs'. split; [exact E1|]. split; [exact E2|]. cbv zeta. split.
  - change (add_sym y t :: g ++ st') with ((add_sym y t :: g) ++ st').
    apply Hcl.
    + apply Renv_add; auto. intros m Em. rewrite (Hv m Em), E2. reflexivity.
    + reflexivity.
    + reflexivity.
    + apply ext_app.
    + destruct (is_fun y); lia.
    + auto.
    + apply Rsyms_app. pose proof (Rst_syms _ _ _ _ _ _ (R_st _ _ HR)) as S. rewrite E1 in S.
      change (t :: g ++ st') with ((t :: g) ++ st') in S. rewrite flat_map_app in S.
      apply Forall_app in S. apply S.
  - pose proof (R_uniq _ _ HR) as U. rewrite E1 in U. cbn [flat_map] in *.
    eapply Permutation_NoDup.
    + symmetry. apply Permutation_map. apply Permutation_app_tail. apply add_sym_own_perm.
    + cbn [app map]. constructor; [|exact U]. rewrite Hy. intros Q.
      apply in_map_iff in Q. destruct Q as (z0 & E0 & Hz0).
      pose proof (Rst_syms _ _ _ _ _ _ (R_st _ _ HR)) as S. rewrite E1 in S. cbn [flat_map] in S.
      rewrite Forall_forall in S. specialize (S z0 Hz0). apply Rsym_lt in S. lia.
Qed.

Lemma R_push_var : forall s z x e es,
  R s z -> z_env z = e :: es -> find (named (z_decls z) x) (hd [] (n_blocks e)) = None ->
  R (push_var x s) (put_var x z).
Proof.
  intros s z x e es HR Ez Hn.
  pose (y := mksym (c_next s) x (KVar (match c_fs s with f :: _ => length (fs_locals f) | [] => 0 end))).
  assert (Hy : y_id y = length (z_decls z)) by (simpl; apply HR).
  destruct (R_add s z y e es HR Ez Hy Hn) as (t & st & f & fs & E1 & E2 & A & B).
  - intros m Em. simpl in Em. congruence.
  - intros p q Em. simpl in Em. discriminate.
  - unfold push_var, put_var. rewrite E1, E2, Ez.
    unfold y in *. rewrite E2 in *. unfold add_sym, add_fs, add_env in *. cbn in A, B.
    constructor; cbn [c_next c_nfun c_stack c_fs c_funs z_decls z_nfun z_env z_plain z_done].
    + rewrite app_length, (R_next _ _ HR). simpl. lia.
    + apply HR.
    + exact A.
    + exact B.
    + apply HR.
Qed.

Lemma clash_hd : forall ds x e,
  clash ds x None e = false -> find (named ds x) (hd [] (n_blocks e)) = None.
Proof.
  intros ds x e H. unfold clash in H. destruct (n_blocks e) as [|b r]; [reflexivity|]. simpl in *.
  destruct (find (named ds x) b); [discriminate|reflexivity].
Qed.

Section Steps.
Variable ty : name -> bool.

Lemma R_var : forall s z x,
  R s z ->
  snd (register_var ty x s) = snd (spec_var ty x z) /\
  R (fst (register_var ty x s)) (fst (spec_var ty x z)).
Proof.
  intros s z x HR. destruct (R_env _ _ HR) as (e & es & Ez).
  unfold register_var, spec_var. rewrite Ez. destruct (ty x); [split; [reflexivity|exact HR]|].
  pose proof (up_down_R s z x None HR (or_introl eq_refl)) as U. rewrite Ez in U. cbn [orb].
  destruct (up_down x None (c_stack s)).
  - destruct (clash (z_decls z) x None e); [split; [reflexivity|exact HR]|].
    destruct U as [_ U]. specialize (U eq_refl). discriminate.
  - destruct U as [U _]. rewrite (U eq_refl). split; [reflexivity|].
    eapply R_push_var; eauto. apply clash_hd. auto.
Qed.

Lemma R_args : forall ps s z,
  R s z ->
  snd (register_args ty ps s) = snd (spec_args ty ps z) /\
  R (fst (register_args ty ps s)) (fst (spec_args ty ps z)).
Proof.
  induction ps as [|x ps IH]; intros s z HR; [split; [reflexivity|exact HR]|].
  destruct (R_env _ _ HR) as (e & es & Ez). cbn [register_args spec_args]. rewrite Ez.
  unfold register_arg. destruct (ty x); [split; [reflexivity|exact HR]|]. cbn [orb].
  destruct (Rst_open _ _ _ _ _ _ (R_st _ _ HR))
    as (k & t & g & st' & f & fs' & e' & es' & E1 & E2 & E3 & He & _).
  rewrite Ez in E3. inversion E3; subst e' es'. rewrite E1.
  pose proof (v_blocks _ _ _ _ _ _ _ He) as HB. inversion HB as [|? b ? bs Rt Rg Eb Ebs]; subst.
  pose proof (here_find (z_decls z) t b x Rt) as HH. cbn [hd].
  destruct (here x None t) as [y|].
  - destruct HH as (_ & HH & _). apply find_some in HH.
    assert (X : existsb (named (z_decls z) x) b = true) by (apply existsb_exists; eauto).
    rewrite X. split; [reflexivity|exact HR].
  - assert (X : existsb (named (z_decls z) x) b = false).
    { apply not_true_iff_false. intros X. apply existsb_exists in X. destruct X as (i & Hi & Ni).
      rewrite find_none_iff in HH. rewrite HH in Ni by exact Hi. discriminate. }
    rewrite X. apply IH. eapply R_push_var; eauto. rewrite <- Ebs. exact HH.
Qed.
End Steps.

(* ------------------------------------------------------------------ *)
(** * Renumbering *)

Lemma flat_map_same : forall A B (f g : A -> list B) l,
  (forall a, In a l -> f a = g a) -> flat_map f l = flat_map g l.
Proof.
  induction l as [|a l IH]; intros H; [reflexivity|]. simpl.
  rewrite (H a) by (left; reflexivity). f_equal. apply IH. intros. apply H. right. assumption.
Qed.

Lemma count_vars_eq : forall id k f u v g c,
  count_vars id (Sc k f u v g c) =
  if Nat.eqb f id then length v + list_sum (map (count_vars id) c) else 0.
Proof.
  intros. cbn [count_vars]. destruct (Nat.eqb f id); [|reflexivity]. f_equal.
  induction c as [|d t IH]; [reflexivity|]. simpl. rewrite IH. reflexivity.
Qed.

Lemma count_preorder : forall s, tree_ok s -> count_vars (sc_fid s) s = length (preorder s).
Proof.
  intros s. induction s as [k f u v g c IH] using sc_ind2. intros T.
  apply tree_ok_eq in T. destruct T as (_ & _ & T). cbn [sc_fid].
  rewrite count_vars_eq, Nat.eqb_refl, preorder_eq, app_length. f_equal.
  induction c as [|d c' IHc]; [reflexivity|]. inversion IH; subst. inversion T; subst.
  cbn [map list_sum fold_right flat_map]. rewrite app_length. unfold blk at 1.
  change (fold_right Nat.add 0 (map (count_vars f) c')) with (list_sum (map (count_vars f) c')).
  rewrite IHc by assumption. f_equal. unfold kid_ok in H3. destruct (is_block d).
  - destruct H3 as (E & K & _). rewrite <- E. apply H1. exact K.
  - destruct H3 as [H3 _]. destruct d as [k0 f0 u0 v0 g0 c0]. rewrite count_vars_eq. simpl in H3.
    apply Nat.eqb_neq in H3. rewrite H3. reflexivity.
Qed.

Lemma sorted_from_eq : forall l n, sorted_from n l = true <-> l = seq n (length l).
Proof.
  induction l as [|k l IH]; intros n; simpl; [tauto|].
  destruct (Nat.eqb k n) eqn:E.
  - apply Nat.eqb_eq in E. subst. rewrite IH. split; congruence.
  - split; [discriminate|]. intros H. inversion H. subst. rewrite Nat.eqb_refl in E. discriminate.
Qed.

Lemma set_nth_some : forall A (l : list A) n a,
  n < length l -> exists l', set_nth n a l = Some l' /\ length l' = length l /\
    nth_error l' n = Some a /\ forall j, j <> n -> nth_error l' j = nth_error l j.
Proof.
  induction l as [|b l IH]; intros n a H; simpl in H; [lia|]. destruct n as [|n].
  - exists (a :: l). simpl. repeat split. intros [|j] Hj; [congruence|reflexivity].
  - destruct (IH n a) as (l' & E & L & N & O); [lia|]. exists (b :: l'). simpl. rewrite E.
    repeat split; [simpl; congruence|exact N|]. intros [|j] Hj; [reflexivity|]. simpl. apply O. congruence.
Qed.

Lemma fill_some : forall order n t,
  NoDup order -> (forall k, In k order -> k < length t) ->
  exists t', fill order n t = Some t' /\ length t' = length t /\
    (forall j k, nth_error order j = Some k -> nth_error t' k = Some (Some (n + j))) /\
    (forall k, ~ In k order -> nth_error t' k = nth_error t k).
Proof.
  induction order as [|k order IH]; intros n t ND H.
  - exists t. simpl. repeat split; auto. intros [|j] k E; discriminate.
  - inversion ND as [|? ? Nk ND']; subst.
    destruct (set_nth_some _ t k (Some n)) as (t1 & E1 & L1 & N1 & O1); [apply H; left; reflexivity|].
    destruct (IH (S n) t1 ND') as (t2 & E2 & L2 & N2 & O2).
    { intros j Hj. rewrite L1. apply H. right. exact Hj. }
    exists t2. cbn [fill]. rewrite E1. split; [exact E2|]. split; [congruence|]. split.
    + intros [|j] m E; simpl in E.
      * inversion E; subst m. rewrite O2 by exact Nk. rewrite N1, Nat.add_0_r. reflexivity.
      * rewrite (N2 _ _ E). do 2 f_equal. lia.
    + intros m Hm. rewrite O2, O1; auto; intros Q; apply Hm; [left; congruence|right; exact Q].
Qed.

(** What the end of a function knows about its scope. *)
Record Fin (pl : bool) (f : fstate) (t : sc) (vs : list nat) (acc : list sacc) : Prop := mkFin {
  f_tree : tree_ok t;
  f_top : map y_id (sc_vars t) = vs;
  f_slot : forall y, In y (preorder t) -> nth_error (fs_locals f) (slot y) = Some (y_id y);
  f_cover : forall i, In i (fs_locals f) <-> In i (map y_id (preorder t));
  f_len : length (fs_locals f) = length (preorder t);
  f_nodup : NoDup (fs_locals f);
  f_acc : Forall2 (agrees (fs_locals f)) (accesses (fs_code f)) acc;
  f_plain : pl = true -> Forall plain_instr (fs_code f) }.

Lemma byte_id : forall n, n < 256 -> byte n = n.
Proof. intros n H. unfold byte. rewrite Z.mod_small by lia. apply Nat2Z.id. Qed.

Lemma map_nth_error_inv : forall A B (f : A -> B) l n b,
  nth_error (map f l) n = Some b -> exists a, nth_error l n = Some a /\ f a = b.
Proof.
  intros A B f l. induction l as [|a l IH]; intros [|n] b H; simpl in *; try discriminate; eauto.
  inversion H; eauto.
Qed.

Section Renumber.
Variables (pl : bool) (f : fstate) (t : sc) (vs : list nat) (acc : list sacc).
Hypothesis HF : Fin pl f t vs acc.
Let N := length (fs_locals f).
Let P := preorder t.
Let order := map slot P.

Lemma ids_nodup : NoDup (map y_id P).
Proof.
  apply NoDup_incl_NoDup with (l := fs_locals f).
  - apply HF.
  - unfold P. rewrite map_length, (f_len _ _ _ _ _ HF). lia.
  - intros i Hi. apply (f_cover _ _ _ _ _ HF). exact Hi.
Qed.

Lemma order_nodup : NoDup order.
Proof.
  pose proof ids_nodup as ND. unfold order.
  assert (G : forall y, In y P -> nth_error (fs_locals f) (slot y) = Some (y_id y)) by (apply HF).
  revert G ND. generalize P. intros l. induction l as [|y l IH]; intros G ND; [constructor|].
  simpl in *. inversion ND as [|? ? Ny ND']; subst. constructor.
  - intros Q. apply in_map_iff in Q. destruct Q as (z & E & Hz). apply Ny.
    pose proof (G y (or_introl eq_refl)) as Gy. pose proof (G z (or_intror Hz)) as Gz.
    rewrite E in Gz. rewrite Gy in Gz. inversion Gz. apply in_map_iff. exists z. auto.
  - apply IH; auto.
Qed.

Lemma order_lt : forall k, In k order -> k < N.
Proof.
  intros k Hk. apply in_map_iff in Hk. destruct Hk as (y & <- & Hy).
  apply nth_error_Some. rewrite (f_slot _ _ _ _ _ HF y Hy). discriminate.
Qed.

Lemma order_all : forall k, k < N -> In k order.
Proof.
  intros k Hk.
  assert (I : incl order (seq 0 N)) by (intros j Hj; apply in_seq; pose proof (order_lt j Hj); lia).
  assert (I2 : incl (seq 0 N) order).
  { apply NoDup_length_incl; [exact order_nodup| |exact I].
    rewrite seq_length. unfold order, N, P. rewrite map_length, (f_len _ _ _ _ _ HF). lia. }
  apply I2. apply in_seq. lia.
Qed.

Lemma nth_local : forall j y, nth_error P j = Some y ->
  nth_error (fs_locals f) (slot y) = Some (y_id y).
Proof. intros j y H. apply (f_slot _ _ _ _ _ HF). apply nth_error_In in H. exact H. Qed.

Lemma sorted_case : order = seq 0 (length order) -> fs_locals f = map y_id P.
Proof.
  intros E. apply nth_ext with (d := 0) (d' := 0).
  - unfold P. rewrite map_length. apply HF.
  - intros n Hn. assert (L : n < length P) by (unfold P; rewrite <- (f_len _ _ _ _ _ HF); exact Hn).
    destruct (nth_error P n) as [y|] eqn:En; [|apply nth_error_None in En; lia].
    assert (Es : slot y = n).
    { assert (X : nth_error order n = Some (slot y)) by (apply map_nth_error; exact En).
      rewrite E in X. apply nth_error_nth with (d := 0) in X. rewrite seq_nth in X; [lia|].
      unfold order. rewrite map_length. exact L. }
    pose proof (nth_local n y En) as Q. rewrite Es in Q.
    apply nth_error_nth with (d := 0) in Q. rewrite Q. symmetry.
    apply nth_error_nth. apply map_nth_error. exact En.
Qed.

Definition table_ok (tb : list (option nat)) : Prop :=
  forall n d, nth_error (fs_locals f) n = Some d ->
  exists m, look tb n = Some m /\ m < N /\ nth_error (map y_id P) m = Some d.

Lemma table : exists tb, fill order 0 (repeat None N) = Some tb /\ table_ok tb /\
  forall j y, nth_error P j = Some y -> look tb (slot y) = Some j.
Proof.
  destruct (fill_some order 0 (repeat None N) order_nodup) as (tb & E & L & A & _).
  { intros k Hk. rewrite repeat_length. apply order_lt. exact Hk. }
  exists tb. split; [exact E|].
  assert (G : forall j y, nth_error P j = Some y -> look tb (slot y) = Some j).
  { intros j y Hj. unfold look. rewrite (A j (slot y)) by (apply map_nth_error; exact Hj). reflexivity. }
  split; [|exact G]. intros n d Hd.
  assert (Hn : n < N) by (apply nth_error_Some; congruence).
  pose proof (order_all n Hn) as Q. apply in_map_iff in Q. destruct Q as (y & Es & Hy).
  apply In_nth_error in Hy. destruct Hy as (j & Hj). exists j. rewrite <- Es, (G j y Hj).
  split; [reflexivity|].
  assert (X : nth_error (map y_id P) j = Some (y_id y)) by (apply map_nth_error; exact Hj).
  pose proof (nth_local j y Hj) as Q. rewrite Es, Hd in Q. inversion Q. subst d. split; [|exact X].
  assert (j < length P) by (apply nth_error_Some; congruence).
  unfold N. rewrite (f_len _ _ _ _ _ HF). exact H.
Qed.

Lemma gather_some : forall tb l j,
  (forall i y, nth_error l i = Some y -> look tb (slot y) = Some (j + i)) ->
  (forall y, In y l -> nth_error (fs_locals f) (slot y) = Some (y_id y)) ->
  gather (fs_locals f) (map slot l) tb =
  Some (map y_id l, combine (map y_id l) (seq j (length l))).
Proof.
  intros tb. induction l as [|y l IH]; intros j H G; [reflexivity|].
  cbn [map gather]. rewrite (G y) by (left; reflexivity).
  rewrite (H 0 y eq_refl), Nat.add_0_r.
  rewrite (IH (S j)); [reflexivity| |intros; apply G; right; assumption].
  intros i z Hz. rewrite (H (S i) z Hz). f_equal. lia.
Qed.

Lemma rewrite_some : forall tb, table_ok tb -> forall code vs0,
  Forall plain_instr code ->
  Forall2 (agrees (fs_locals f)) (accesses code) vs0 ->
  exists code', rewrite_code tb code = Some code' /\
    (N <= 256 -> Forall2 (agrees (map y_id P)) (accesses code') vs0).
Proof.
  intros tb T. induction code as [|i code IH]; intros vs0 Hp Ha.
  - exists []. split; [reflexivity|]. intros _. inversion Ha. constructor.
  - inversion Hp as [|? ? Pi Pc]; subst.
    change (accesses (i :: code)) with (acc1 i ++ accesses code) in Ha.
    apply Forall2_app_inv_l in Ha. destruct Ha as (va & vb & Ha & Hb & ->).
    destruct (IH vb Pc Hb) as (code' & Ec & Hc).
    assert (Hi : exists i', rewrite1 tb i = Some i' /\
              (N <= 256 -> Forall2 (agrees (map y_id P)) (acc1 i') va)).
    { clear - T Pi Ha.
      assert (A : forall n v, agrees (fs_locals f) (Read n) v ->
                exists m, look tb n = Some m /\ m < N /\ agrees (map y_id P) (Read m) v).
      { intros n [d|d|d|d|d|d] Q; simpl in *; try contradiction. destruct (T n d Q) as (m & X & Y & W). eauto. }
      assert (A2 : forall n v, agrees (fs_locals f) (Write n) v ->
                exists m, look tb n = Some m /\ m < N /\ agrees (map y_id P) (Write m) v).
      { intros n [d|d|d|d|d|d] Q; simpl in *; try contradiction. destruct (T n d Q) as (m & X & Y & W). eauto. }
      destruct i as [n|id|x|x|k|n|n|[n|k]|[n|k] [n'|k']|]; cbn [acc1 acc_arg plain_instr] in *;
        try contradiction;
        repeat match goal with
        | H : Forall2 _ (_ :: _) _ |- _ => inversion H; subst; clear H
        | H : Forall2 _ [] _ |- _ => inversion H; subst; clear H
        end;
        repeat match goal with
        | H : agrees (fs_locals f) (Read _) _ |- _ => apply A in H; destruct H as (? & ? & ? & ?)
        | H : agrees (fs_locals f) (Write _) _ |- _ => apply A2 in H; destruct H as (? & ? & ? & ?)
        end; cbn [rewrite1];
        repeat match goal with
        | H : look tb _ = Some _ |- _ => rewrite H; clear H
        end; cbn [option_map]; eexists; (split; [reflexivity|]); intros L; cbn [acc1 acc_arg];
        rewrite ?byte_id by lia; repeat constructor; assumption. }
    destruct Hi as (i' & Ei & Hi). exists (i' :: code'). cbn [rewrite_code]. rewrite Ei, Ec.
    split; [reflexivity|]. intros L. change (accesses (i' :: code')) with (acc1 i' ++ accesses code').
    apply Forall2_app; auto.
Qed.
End Renumber.

Lemma move_sc_eq : forall m k f u v g c,
  move_sc m (Sc k f u v g c) = Sc k f u (map (move_sym m) v) g (map (move_sc m) c).
Proof.
  intros. cbn [move_sc]. f_equal. 
Qed.

Lemma move_block : forall m s, is_block (move_sc m s) = is_block s.
Proof. intros m [k f u v g c]. reflexivity. Qed.

Lemma move_preorder : forall m s, preorder (move_sc m s) = map (move_sym m) (preorder s).
Proof.
  intros m s. induction s as [k f u v g c IH] using sc_ind2.
  rewrite move_sc_eq, !preorder_eq, map_app. f_equal.
  induction c as [|d c IHc]; [reflexivity|]. inversion IH; subst. cbn [map flat_map].
  rewrite map_app, IHc by assumption. f_equal. unfold blk. rewrite move_block.
  destruct (is_block d); [assumption|reflexivity].
Qed.

Lemma move_sym_id : forall m y, y_id (move_sym m y) = y_id y.
Proof. intros m y. unfold move_sym. destruct (find _ m) as [[a b]|]; reflexivity. Qed.

Lemma move_sym_name : forall m y, y_name (move_sym m y) = y_name y.
Proof. intros m y. unfold move_sym. destruct (find _ m) as [[a b]|]; reflexivity. Qed.

Lemma move_sym_var : forall m y, is_fun y = false -> is_fun (move_sym m y) = false.
Proof. intros m y H. unfold move_sym. destruct (find _ m) as [[a b]|]; [reflexivity|exact H]. Qed.

Lemma move_sym_decl : forall m y, is_fun y = false -> decl_of (move_sym m y) = decl_of y.
Proof.
  intros m y H. unfold decl_of. rewrite move_sym_name. f_equal.
  pose proof (move_sym_var m y H) as Q. unfold is_fun in *.
  destruct (y_kind y), (y_kind (move_sym m y)); congruence.
Qed.

Lemma move_tree : forall m s, tree_ok s -> tree_ok (move_sc m s).
Proof.
  intros m s. induction s as [k f u v g c IH] using sc_ind2. intros T.
  rewrite move_sc_eq. apply tree_ok_eq. apply tree_ok_eq in T. destruct T as (A & B & C).
  split; [|split; [exact B|]].
  - apply Forall_forall. intros y Hy. apply in_map_iff in Hy. destruct Hy as (z & <- & Hz).
    apply move_sym_var. rewrite Forall_forall in A. auto.
  - apply Forall_forall. intros d Hd. apply in_map_iff in Hd. destruct Hd as (d0 & <- & Hd0).
    rewrite Forall_forall in C, IH. specialize (C d0 Hd0). specialize (IH d0 Hd0).
    unfold kid_ok in *. rewrite move_block. destruct d0 as [k0 f0 u0 v0 g0 c0].
    rewrite move_sc_eq in *. cbn [is_block sc_kind sc_fid sc_unused sc_vars sc_kids] in *.
    destruct (is_block (Sc k0 f0 u0 v0 g0 c0)).
    + destruct C as (C1 & C2 & C3). split; [exact C1|]. split; [apply IH; exact C2|].
      intros Hu. destruct (C3 Hu) as [-> ->]. split; reflexivity.
    + exact C.
Qed.

Lemma slots_moved : forall l j,
  NoDup (map y_id l) ->
  map slot (map (move_sym (combine (map y_id l) (seq j (length l)))) l) = seq j (length l).
Proof.
  intros l j ND. rewrite map_map.
  assert (G : forall pre, NoDup (map y_id pre ++ map y_id l) ->
     forall mp, length mp = length pre ->
     map (fun y => slot (move_sym (combine (map y_id pre) mp ++ combine (map y_id l) (seq j (length l))) y)) l
     = seq j (length l)).
  { clear ND. revert j. induction l as [|y l IH]; intros j pre ND mp Lp; [reflexivity|].
    cbn [map length seq combine]. f_equal.
    - unfold move_sym. rewrite find_app.
      destruct (find (fun p => Nat.eqb (fst p) (y_id y)) (combine (map y_id pre) mp)) as [[a b]|] eqn:F.
      + apply find_some in F. destruct F as [F1 F2]. simpl in F2. apply Nat.eqb_eq in F2. subst a.
        apply in_combine_l in F1. exfalso. cbn [map] in ND. apply NoDup_remove_2 in ND. apply ND.
        apply in_or_app. left. exact F1.
      + simpl. rewrite Nat.eqb_refl. reflexivity.
    - specialize (IH (S j) (pre ++ [y])).
      etransitivity; [|apply IH with (mp := mp ++ [j])].
      + apply map_ext. intros z. do 2 f_equal.
        rewrite map_app. cbn [map].
        assert (C : forall (p : list nat) q (a b : list nat), length p = length q ->
                 combine (p ++ a) (q ++ b) = combine p q ++ combine a b).
        { induction p as [|p0 p IHp]; intros [|q0 q] a b L; simpl in *; try discriminate; [reflexivity|].
          rewrite IHp by lia. reflexivity. }
        rewrite C by (rewrite map_length; congruence). rewrite <- app_assoc. reflexivity.
      + rewrite map_app, <- app_assoc. exact ND.
      + rewrite !app_length. simpl. lia. }
  specialize (G [] ND [] eq_refl). exact G.
Qed.

(** The end of a function. *)
Definition same_but_slots (t t' : sc) : Prop := t' = t \/ exists m, t' = move_sc m t.

Lemma finalize_ok : forall pl f t vs acc,
  Fin pl f t vs acc ->
  match finalize f t with
  | POk fn t' =>
      (pl = true -> length (fs_locals f) <= 256 -> faithful fn (mksf vs (fs_locals f) acc)) /\
      same_but_slots t t' /\
      fn_locals fn = map y_id (preorder t') /\
      map slot (preorder t') = seq 0 (length (preorder t'))
  | PErr => False
  | PUndef => pl = false
  end.
Proof.
  intros pl f t vs acc HF. unfold finalize.
  pose proof (ids_nodup _ _ _ _ _ HF) as ND.
  assert (TOP : exists rest, map y_id (preorder t) = vs ++ rest).
  { pose proof (f_top _ _ _ _ _ HF) as T. destruct t as [k fi u v g c]. rewrite preorder_eq, map_app.
    simpl in T. rewrite T. eauto. }
  destruct (sorted_from 0 (map slot (preorder t))) eqn:S.
  - apply sorted_from_eq in S. pose proof (sorted_case _ _ _ _ _ HF S) as L.
    split; [|split; [left; reflexivity|split; [exact L|]]].
    + intros _ _. unfold faithful. cbn [fn_locals fn_code o_top o_vars o_acc].
      split; [apply HF|]. split; [tauto|]. split; [reflexivity|]. split; [rewrite L; exact TOP|apply HF].
    + rewrite map_length in S. exact S.
  - rewrite count_preorder by apply HF. rewrite (proj2 (Nat.eqb_eq _ _) (f_len _ _ _ _ _ HF)).
    destruct (table _ _ _ _ _ HF) as (tb & Et & Tt & Tg). rewrite Et.
    rewrite (gather_some f tb (preorder t) 0 Tg (f_slot _ _ _ _ _ HF)).
    assert (ST : forall m, m = combine (map y_id (preorder t)) (seq 0 (length (preorder t))) ->
       map y_id (preorder t) = map y_id (preorder (move_sc m t)) /\
       map slot (preorder (move_sc m t)) = seq 0 (length (preorder (move_sc m t)))).
    { intros m ->. rewrite move_preorder, map_length. split.
      - rewrite map_map. apply map_ext. intros y. symmetry. apply move_sym_id.
      - apply slots_moved. exact ND. }
    destruct (rewrite_code tb (fs_code f)) as [code|] eqn:C.
    + split; [|split; [right; eauto|apply ST; reflexivity]].
      intros Hp Hl. specialize (f_plain _ _ _ _ _ HF Hp) as PC.
      destruct (rewrite_some f t tb Tt (fs_code f) acc PC (f_acc _ _ _ _ _ HF)) as (code' & E' & A').
      rewrite C in E'. inversion E'; subst code'.
      unfold faithful. cbn [fn_locals fn_code o_top o_vars o_acc].
      split; [exact ND|]. split; [intros d; symmetry; apply HF|].
      split; [rewrite map_length; symmetry; apply HF|]. split; [exact TOP|]. apply A'. exact Hl.
    + destruct pl; [|reflexivity]. specialize (f_plain _ _ _ _ _ HF eq_refl) as PC.
      destruct (rewrite_some f t tb Tt (fs_code f) acc PC (f_acc _ _ _ _ _ HF)) as (code' & E' & A').
      congruence.
Qed.
