(** Proofs about the type registry: histories refine the class table. *)
From Coq Require Import List ZArith Bool Lia Relations Arith Wf_nat.
From Verif Require Import Base StringModel TypeModel TypeSpec.
Import ListNotations.

(** ** Names *)

Lemma name_eqb_spec a b : name_eqb a b = true <-> a = b.
Proof.
  revert b; induction a as [|x a IH]; intros [|y b]; simpl; split; intro H; try easy.
  - apply andb_true_iff in H as [H1 H2]. apply Z.eqb_eq in H1. apply IH in H2. congruence.
  - inversion H; subst. rewrite Z.eqb_refl. apply IH. reflexivity.
Qed.

Lemma name_eqb_refl a : name_eqb a a = true.
Proof. apply name_eqb_spec; reflexivity. Qed.

Lemma name_eqb_false a b : name_eqb a b = false <-> a <> b.
Proof.
  split; intro H.
  - intros ->. rewrite name_eqb_refl in H. discriminate.
  - destruct (name_eqb a b) eqn:E; [|reflexivity]. apply name_eqb_spec in E. contradiction.
Qed.

Lemma mem_spec n l : mem n l = true <-> In n l.
Proof.
  unfold mem. rewrite existsb_exists. split.
  - intros (x & Hx & E). apply name_eqb_spec in E. subst. exact Hx.
  - intro H. exists n. split; [exact H | apply name_eqb_refl].
Qed.

Lemma mem_false n l : mem n l = false <-> ~ In n l.
Proof.
  split; intro H.
  - intro I. apply mem_spec in I. congruence.
  - destruct (mem n l) eqn:E; [|reflexivity]. apply mem_spec in E. contradiction.
Qed.

Lemma name_dec (a b : name) : {a = b} + {a <> b}.
Proof. exact (list_eq_dec Z.eq_dec a b). Qed.

(** ** Searching types *)

Lemma find_from_spec l n i k :
  find_from i l n = Some k ->
  exists j t, k = (i + j)%nat /\ nth_error l j = Some t /\ ty_name t = n /\
    forall j' t', (j' < j)%nat -> nth_error l j' = Some t' -> ty_name t' <> n.
Proof.
  revert i; induction l as [|t l IH]; intros i H; simpl in H; [discriminate|].
  destruct (name_eqb (ty_name t) n) eqn:E.
  - inversion H; subst. exists 0%nat, t. split; [lia|]. split; [reflexivity|].
    split; [apply name_eqb_spec; exact E|]. intros j' t' Hj. lia.
  - apply IH in H as (j & t1 & -> & N & E1 & F). exists (S j), t1. split; [lia|].
    split; [exact N|]. split; [exact E1|].
    intros [|j'] t' Hj N'; simpl in N'.
    + inversion N'; subst. apply name_eqb_false; exact E.
    + apply (F j' t'); [lia | exact N'].
Qed.

Lemma find_from_none l n i :
  find_from i l n = None <-> forall j t, nth_error l j = Some t -> ty_name t <> n.
Proof.
  revert i; induction l as [|t l IH]; intros i; simpl.
  - split; [intros _ [|j] t H; discriminate | reflexivity].
  - destruct (name_eqb (ty_name t) n) eqn:E.
    + split; [discriminate|]. intro H. exfalso. apply (H 0%nat t eq_refl).
      apply name_eqb_spec; exact E.
    + rewrite IH. split.
      * intros H [|j] t' N; simpl in N.
        -- inversion N; subst. apply name_eqb_false; exact E.
        -- exact (H j t' N).
      * intros H j t' N. exact (H (S j) t' N).
Qed.

Lemma find_type_some r n k :
  find_type r n = Some k ->
  exists t, nth_error (types r) k = Some t /\ ty_name t = n /\
    forall j' t', (j' < k)%nat -> nth_error (types r) j' = Some t' -> ty_name t' <> n.
Proof.
  intro H. apply find_from_spec in H as (j & t & -> & N & E & F). simpl.
  exists t. auto.
Qed.

Lemma find_type_none r n :
  find_type r n = None <-> forall j t, nth_error (types r) j = Some t -> ty_name t <> n.
Proof. apply find_from_none. Qed.

Lemma is_type_spec r n :
  is_type r n = true <-> exists j t, nth_error (types r) j = Some t /\ ty_name t = n.
Proof.
  unfold is_type. destruct (find_type r n) eqn:E.
  - split; [|reflexivity]. intros _. apply find_type_some in E as (t & N & En & _). eauto.
  - rewrite find_type_none in E. split; [discriminate|].
    intros (j & t & N & En). exfalso. exact (E j t N En).
Qed.

Lemma is_type_false r n :
  is_type r n = false <-> forall j t, nth_error (types r) j = Some t -> ty_name t <> n.
Proof.
  unfold is_type. rewrite <- find_type_none. destruct (find_type r n); split; congruence.
Qed.

Lemma find_type_first r n k t :
  nth_error (types r) k = Some t -> ty_name t = n ->
  (forall j' t', (j' < k)%nat -> nth_error (types r) j' = Some t' -> ty_name t' <> n) ->
  find_type r n = Some k.
Proof.
  intros N E F. destruct (find_type r n) as [k'|] eqn:Ef.
  - apply find_type_some in Ef as (t' & N' & E' & F').
    destruct (Nat.lt_trichotomy k k') as [L|[->|L]]; [|reflexivity|].
    + exfalso. exact (F' k t L N E).
    + exfalso. exact (F k' t' L N' E').
  - rewrite find_type_none in Ef. exfalso. exact (Ef k t N E).
Qed.

Lemma nth_error_app_last {A} (l : list A) x : nth_error (l ++ [x]) (length l) = Some x.
Proof. rewrite nth_error_app2 by lia. rewrite Nat.sub_diag. reflexivity. Qed.

Lemma nth_error_snoc {A} (l : list A) x t y :
  nth_error (l ++ [x]) t = Some y ->
  (t < length l /\ nth_error l t = Some y)%nat \/ (t = length l /\ y = x).
Proof.
  intro H. destruct (Nat.lt_ge_cases t (length l)) as [L|L].
  - left. rewrite nth_error_app1 in H by exact L. auto.
  - right. rewrite nth_error_app2 in H by exact L.
    destruct (t - length l)%nat eqn:E; simpl in H.
    + inversion H. split; [lia | reflexivity].
    + destruct n; discriminate.
Qed.

Lemma upd_snoc {A} (l : list A) x y : upd (l ++ [x]) (length l) y = l ++ [y].
Proof. induction l as [|a l IH]; simpl; [reflexivity|]. rewrite IH. reflexivity. Qed.

Lemma nth_error_upd_neq' {A} (m : list A) i j c : i <> j -> nth_error (upd m i c) j = nth_error m j.
Proof.
  revert i j; induction m as [|x m IH]; intros [|i] [|j] H; simpl; try reflexivity; try lia.
  apply IH. lia.
Qed.

Lemma nth_error_upd_some {A} (m : list A) i c j y :
  nth_error (upd m i c) j = Some y ->
  (i = j /\ y = c /\ (i < length m)%nat) \/ (i <> j /\ nth_error m j = Some y).
Proof.
  intro H. destruct (Nat.eq_dec i j) as [->|N].
  - left. assert (j < length m)%nat.
    { rewrite <- (upd_length m j c). apply nth_error_Some. congruence. }
    rewrite nth_error_upd_eq in H by assumption. inversion H. auto.
  - right. rewrite nth_error_upd_neq' in H by exact N. auto.
Qed.

Lemma map_upd {A B} (f : A -> B) (l : list A) i c : map f (upd l i c) = upd (map f l) i (f c).
Proof. revert i; induction l as [|x l IH]; intros [|i]; simpl; auto. rewrite IH. reflexivity. Qed.

Lemma upd_same {A} (l : list A) i x : nth_error l i = Some x -> upd l i x = l.
Proof.
  revert i; induction l as [|y l IH]; intros [|i] H; simpl in *; try discriminate; auto.
  - inversion H. reflexivity.
  - rewrite IH by exact H. reflexivity.
Qed.

(** ** Functions of a scope *)

Lemma last_fun_snoc l s n :
  last_fun (l ++ [s]) n = if name_eqb (s_name s) n then Some s else last_fun l n.
Proof. unfold last_fun. rewrite rev_app_distr. reflexivity. Qed.

Lemma last_fun_app l1 l2 n :
  last_fun (l1 ++ l2) n = match last_fun l2 n with Some s => Some s | None => last_fun l1 n end.
Proof.
  induction l2 as [|s l2 IH] using rev_ind; simpl.
  - rewrite app_nil_r. reflexivity.
  - rewrite app_assoc, !last_fun_snoc. destruct (name_eqb (s_name s) n); [reflexivity | exact IH].
Qed.

Lemma last_fun_in l n s : last_fun l n = Some s -> In s l /\ s_name s = n.
Proof.
  unfold last_fun. intro H. apply find_some in H as [I E].
  split; [apply in_rev; exact I | apply name_eqb_spec; exact E].
Qed.

Lemma last_fun_none l n : last_fun l n = None <-> forall s, In s l -> s_name s <> n.
Proof.
  unfold last_fun. split.
  - intros H s I E. apply in_rev in I. pose proof (find_none _ _ H s I) as F. simpl in F.
    rewrite E, name_eqb_refl in F. discriminate.
  - intro H. destruct (find _ (rev l)) as [s|] eqn:E; [|reflexivity].
    apply find_some in E as [I E]. apply name_eqb_spec in E. exfalso.
    apply (H s); [apply in_rev; exact I | exact E].
Qed.

Lemma first_fun_none t n : first_fun t n = None <-> last_fun (ty_funs t) n = None.
Proof.
  rewrite last_fun_none. unfold first_fun. split.
  - intros H s I E. pose proof (find_none _ _ H s I) as F. simpl in F.
    rewrite E, name_eqb_refl in F. discriminate.
  - intro H. destruct (find _ (ty_funs t)) as [s|] eqn:E; [|reflexivity].
    apply find_some in E as [I E]. apply name_eqb_spec in E. exfalso. exact (H s I E).
Qed.

Definition own_syms (t : nat) (ms : list (name * nat)) : list msym :=
  map (fun m => mksym (fst m) (snd m) t) ms.

Lemma last_fun_own t ms n :
  NoDup (map fst ms) ->
  (forall f, In (n, f) ms -> last_fun (own_syms t ms) n = Some (mksym n f t)) /\
  (~ In n (map fst ms) -> last_fun (own_syms t ms) n = None).
Proof.
  intro ND. split.
  - induction ms as [|[m g] ms IH] using rev_ind; intros f I; [destruct I|].
    unfold own_syms. rewrite map_app. simpl. rewrite last_fun_snoc. simpl.
    rewrite map_app in ND. simpl in ND.
    apply NoDup_remove in ND as [ND NI]. rewrite app_nil_r in *.
    apply in_app_iff in I as [I|[I|[]]].
    + destruct (name_eqb m n) eqn:E.
      * apply name_eqb_spec in E. subst m. exfalso. apply NI. apply in_map_iff. exists (n, f). auto.
      * apply (IH ND). exact I.
    + inversion I; subst. rewrite name_eqb_refl. reflexivity.
  - intro NI. apply last_fun_none. intros s I E. apply NI.
    unfold own_syms in I. apply in_map_iff in I as ([m f] & <- & I). simpl in E. subst m.
    apply in_map_iff. exists (n, f). auto.
Qed.

(** ** The class table *)

Lemma method_inv tb t c n f :
  nth_error tb t = Some c ->
  (method_of tb t n f <->
   In (n, f) (c_methods c) \/
   (~ In n (map fst (c_methods c)) /\ exists p, c_parent c = Some p /\ method_of tb p n f)).
Proof.
  intro N. split.
  - intro H. inversion H as [t' c' n' f' N' I|t' c' p n' f' N' NI P M]; subst;
      rewrite N in N'; inversion N'; subst; [left; exact I|right; eauto].
  - intros [I|(NI & p & P & M)]; [eapply own_method | eapply inherited_method]; eauto.
Qed.

Lemma var_inv tb t c v :
  nth_error tb t = Some c ->
  (has_var tb t v <->
   In v (c_vars c) \/ exists p, c_parent c = Some p /\ has_var tb p v).
Proof.
  intro N. split.
  - intro H. inversion H as [t' c' v' N' I|t' c' p v' N' P M]; subst;
      rewrite N in N'; inversion N'; subst; [left; exact I|right; eauto].
  - intros [I|(p & P & M)]; [eapply own_var | eapply inherited_var]; eauto.
Qed.

Section Agree.
Variables (tb tb' : table) (P : nat -> Prop).
Hypothesis same : forall u, P u -> nth_error tb' u = nth_error tb u.
Hypothesis closed : forall u p, P u -> parent tb u p -> P p.

Lemma method_agree u n f : P u -> (method_of tb' u n f <-> method_of tb u n f).
Proof.
  intro Pu. split; intro H.
  - induction H as [t c n f N I|t c p n f N NI E M IH].
    + rewrite (same _ Pu) in N. eapply own_method; eauto.
    + rewrite (same _ Pu) in N. eapply inherited_method; eauto.
      apply IH. eapply closed; [exact Pu|]. exists c; auto.
  - induction H as [t c n f N I|t c p n f N NI E M IH].
    + rewrite <- (same _ Pu) in N. eapply own_method; eauto.
    + eapply inherited_method; [rewrite (same _ Pu); exact N|exact NI|exact E|].
      apply IH. eapply closed; [exact Pu|]. exists c; auto.
Qed.

Lemma var_agree u v : P u -> (has_var tb' u v <-> has_var tb u v).
Proof.
  intro Pu. split; intro H.
  - induction H as [t c v N I|t c p v N E M IH].
    + rewrite (same _ Pu) in N. eapply own_var; eauto.
    + rewrite (same _ Pu) in N. eapply inherited_var; eauto.
      apply IH. eapply closed; [exact Pu|]. exists c; auto.
  - induction H as [t c v N I|t c p v N E M IH].
    + rewrite <- (same _ Pu) in N. eapply own_var; eauto.
    + eapply inherited_var; [rewrite (same _ Pu); exact N|exact E|].
      apply IH. eapply closed; [exact Pu|]. exists c; auto.
Qed.
End Agree.

(** ** The relation between registry and table *)

Definition base_vars (r : registry) (p : option nat) : list name :=
  match p with
  | None => []
  | Some p => match nth_error (types r) p with Some t => ty_vars t | None => [] end
  end.
Definition base_funs (r : registry) (p : option nat) : list msym :=
  match p with
  | None => []
  | Some p => match nth_error (types r) p with Some t => ty_funs t | None => [] end
  end.
Definition opt_list {A} (o : option A) : list A := match o with Some x => [x] | None => [] end.

Record Inv (r : registry) (gs : list name) (tb : table) (k : nat) : Prop := mkInv {
  I_globals : globals r = gs;
  I_nfun : nfun r = k;
  I_len : length (types r) = length tb;
  I_at : forall t c, nth_error tb t = Some c -> exists ty, nth_error (types r) t = Some ty /\
           ty_name ty = c_name c /\ ty_bases ty = opt_list (c_parent c) /\
           ty_vars ty = base_vars r (c_parent c) ++ c_vars c /\
           ty_funs ty = base_funs r (c_parent c) ++ own_syms t (c_methods c);
  I_par : forall t c p, nth_error tb t = Some c -> c_parent c = Some p -> (p < t)%nat;
  I_names : NoDup (map c_name tb);
  I_own : forall t c, nth_error tb t = Some c -> NoDup (map fst (c_methods c));
  I_vars : forall t ty, nth_error (types r) t = Some ty -> NoDup (ty_vars ty);
  I_apart : forall t v f, has_var tb t v -> ~ method_of tb t v f
}.

Lemma parent_lt tb t p :
  (forall t c p, nth_error tb t = Some c -> c_parent c = Some p -> (p < t)%nat) ->
  parent tb t p -> (p < t)%nat.
Proof. intros H (c & N & E). eapply H; eauto. Qed.

Lemma nth_lt {A} (l : list A) t x : nth_error l t = Some x -> (t < length l)%nat.
Proof. intro H. apply nth_error_Some. congruence. Qed.

Section Facts.
Context {r gs tb k} (I : Inv r gs tb k).

Lemma inv_class t ty : nth_error (types r) t = Some ty -> exists c, nth_error tb t = Some c.
Proof.
  intro N. destruct (nth_error tb t) as [c|] eqn:E; [eauto|].
  apply nth_error_None in E. rewrite <- (I_len _ _ _ _ I) in E. apply nth_lt in N. lia.
Qed.

Lemma inv_ty t c ty :
  nth_error tb t = Some c -> nth_error (types r) t = Some ty ->
  ty_name ty = c_name c /\ ty_bases ty = opt_list (c_parent c) /\
  ty_vars ty = base_vars r (c_parent c) ++ c_vars c /\
  ty_funs ty = base_funs r (c_parent c) ++ own_syms t (c_methods c).
Proof.
  intros Nc Nt. destruct (I_at _ _ _ _ I t c Nc) as (ty' & N' & H). rewrite Nt in N'.
  inversion N'; subst. exact H.
Qed.

Lemma inv_is_type n : is_type r n = true <-> class_name tb n.
Proof.
  rewrite is_type_spec. split.
  - intros (j & t & N & E). destruct (inv_class _ _ N) as (c & Nc).
    destruct (inv_ty _ _ _ Nc N) as (En & _). exists j, c. split; [exact Nc|congruence].
  - intros (j & c & Nc & E). destruct (I_at _ _ _ _ I j c Nc) as (ty & N & En & _).
    exists j, ty. split; [exact N|congruence].
Qed.

Lemma inv_not_type n : ~ class_name tb n -> is_type r n = false.
Proof. intro H. destruct (is_type r n) eqn:E; [|reflexivity]. apply inv_is_type in E. contradiction. Qed.

Lemma inv_find n p : named tb n p -> find_type r n = Some p.
Proof.
  intros (c & Nc & E). destruct (I_at _ _ _ _ I p c Nc) as (ty & N & En & _).
  apply (find_type_first r n p ty); [exact N|congruence|].
  intros j t' L N' E'. destruct (inv_class _ _ N') as (c' & Nc').
  destruct (inv_ty _ _ _ Nc' N') as (En' & _).
  pose proof (I_names _ _ _ _ I) as ND. rewrite NoDup_nth_error in ND.
  assert (j = p); [|lia]. apply ND.
  - rewrite map_length. exact (nth_lt _ _ _ Nc').
  - erewrite !map_nth_error; [|eassumption..]. congruence.
Qed.

Lemma inv_vars t ty v : nth_error (types r) t = Some ty -> (In v (ty_vars ty) <-> has_var tb t v).
Proof.
  revert ty v. induction t as [t IH] using lt_wf_ind. intros ty v N.
  destruct (inv_class _ _ N) as (c & Nc). destruct (inv_ty _ _ _ Nc N) as (_ & _ & Ev & _).
  rewrite (var_inv tb t c v Nc), Ev, in_app_iff.
  destruct (c_parent c) as [p|] eqn:Ep; simpl.
  - pose proof (I_par _ _ _ _ I t c p Nc Ep) as L.
    destruct (nth_error (types r) p) as [pt|] eqn:Np.
    + rewrite (IH p L pt v Np). split.
      * intros [H|H]; [right; eauto | left; exact H].
      * intros [H|(p' & E & H)]; [right; exact H | left; inversion E; subst; exact H].
    + exfalso. apply nth_error_None in Np. apply nth_lt in N. lia.
  - split; [intros [[]|H]; left; exact H |].
    intros [H|(p' & E & H)]; [right; exact H | discriminate].
Qed.

Lemma inv_owners t ty s : nth_error (types r) t = Some ty -> In s (ty_funs ty) -> (s_owner s <= t)%nat.
Proof.
  revert ty s. induction t as [t IH] using lt_wf_ind. intros ty s N H.
  destruct (inv_class _ _ N) as (c & Nc). destruct (inv_ty _ _ _ Nc N) as (_ & _ & _ & Ef).
  rewrite Ef, in_app_iff in H. destruct H as [H|H].
  - destruct (c_parent c) as [p|] eqn:Ep; simpl in H; [|destruct H].
    pose proof (I_par _ _ _ _ I t c p Nc Ep) as L.
    destruct (nth_error (types r) p) as [pt|] eqn:Np; [|destruct H].
    specialize (IH p L pt s Np H). lia.
  - unfold own_syms in H. apply in_map_iff in H as (m & <- & _). simpl. lia.
Qed.

Lemma inv_base_owners t c s :
  nth_error tb t = Some c -> In s (base_funs r (c_parent c)) -> (s_owner s < t)%nat.
Proof.
  intros Nc H. destruct (c_parent c) as [p|] eqn:Ep; simpl in H; [|destruct H].
  pose proof (I_par _ _ _ _ I t c p Nc Ep) as L.
  destruct (nth_error (types r) p) as [pt|] eqn:Np; [|destruct H].
  pose proof (inv_owners p pt s Np H). lia.
Qed.

Lemma inv_funs t ty n f :
  nth_error (types r) t = Some ty ->
  (option_map s_fun (last_fun (ty_funs ty) n) = Some f <-> method_of tb t n f).
Proof.
  revert ty n f. induction t as [t IH] using lt_wf_ind. intros ty n f N.
  destruct (inv_class _ _ N) as (c & Nc). destruct (inv_ty _ _ _ Nc N) as (_ & _ & _ & Ef).
  pose proof (last_fun_own t (c_methods c) n (I_own _ _ _ _ I t c Nc)) as [Own1 Own2].
  rewrite (method_inv tb t c n f Nc), Ef, last_fun_app.
  destruct (in_dec name_dec n (map fst (c_methods c))) as [In1|NI].
  - pose proof In1 as In2.
    apply in_map_iff in In2 as ([m g] & E & Im). simpl in E. subst m.
    rewrite (Own1 g Im). simpl. split.
    + intro H. inversion H; subst. left. exact Im.
    + intros [H|[H _]]; [|contradiction].
      pose proof (Own1 g Im) as A. rewrite (Own1 f H) in A. inversion A. reflexivity.
  - rewrite (Own2 NI).
    destruct (c_parent c) as [p|] eqn:Ep; simpl.
    + pose proof (I_par _ _ _ _ I t c p Nc Ep) as L.
      destruct (nth_error (types r) p) as [pt|] eqn:Np.
      * rewrite (IH p L pt n f Np). split.
        -- intro H. right. split; [exact NI|]. eauto.
        -- intros [H|(_ & p' & E & H)].
           ++ exfalso. apply NI. apply in_map_iff. exists (n, f). auto.
           ++ inversion E; subst. exact H.
      * exfalso. apply nth_error_None in Np. apply nth_lt in N. lia.
    + split; [discriminate|]. intros [H|(_ & p' & E & H)]; [|discriminate].
      exfalso. apply NI. apply in_map_iff. exists (n, f). auto.
Qed.

Lemma inv_no_fun t ty n :
  nth_error (types r) t = Some ty ->
  (last_fun (ty_funs ty) n = None <-> forall f, ~ method_of tb t n f).
Proof.
  intro N. split.
  - intros H f M. apply (inv_funs t ty n f N) in M. rewrite H in M. discriminate.
  - intro H. destruct (last_fun (ty_funs ty) n) as [s|] eqn:E; [|reflexivity].
    exfalso. apply (H (s_fun s)). apply (inv_funs t ty n (s_fun s) N). rewrite E. reflexivity.
Qed.

End Facts.

Lemma start_inv bs : NoDup bs -> Inv (start bs) [] (table0 bs) 0.
Proof.
  intro ND. constructor; simpl; try reflexivity.
  - unfold table0. rewrite !map_length. reflexivity.
  - intros t c N. unfold table0 in N. rewrite nth_error_map in N.
    destruct (nth_error bs t) as [n|] eqn:E; [|discriminate]. inversion N; subst c. simpl.
    exists (mktype n [] [] [] false). rewrite nth_error_map, E. simpl. auto.
  - intros t c p N E. unfold table0 in N. rewrite nth_error_map in N.
    destruct (nth_error bs t); inversion N; subst c. discriminate.
  - unfold table0. rewrite map_map. simpl. rewrite map_id. exact ND.
  - intros t c N. unfold table0 in N. rewrite nth_error_map in N.
    destruct (nth_error bs t); inversion N; subst c. constructor.
  - intros t ty N. rewrite nth_error_map in N.
    destruct (nth_error bs t); inversion N; subst ty. constructor.
  - intros t v f H. exfalso. induction H as [t c v N I|t c p v N E M IH].
    + unfold table0 in N. rewrite nth_error_map in N.
      destruct (nth_error bs t); inversion N; subst c. destruct I.
    + exact IH.
Qed.

(** Adding a class at the end of the table. *)
Lemma below_closed tb :
  (forall t c p, nth_error tb t = Some c -> c_parent c = Some p -> (p < t)%nat) ->
  forall u p, (u < length tb)%nat -> parent tb u p -> (p < length tb)%nat.
Proof. intros H u p L Pr. apply (parent_lt tb u p H) in Pr. lia. Qed.

Lemma add_class r gs tb k n op ty' :
  Inv r gs tb k ->
  (forall p, op = Some p -> (p < length tb)%nat) ->
  ~ class_name tb n ->
  ty' = mktype n (opt_list op) (base_vars r op) (base_funs r op) true ->
  Inv (mkreg (types r ++ [ty']) gs (S k)) gs (tb ++ [mkcls n op [] []]) (S k).
Proof.
  intros I Hp Hn Et.
  pose proof (below_closed tb (I_par _ _ _ _ I)) as Cl.
  assert (Same : forall u, (u < length tb)%nat ->
            nth_error (tb ++ [mkcls n op [] []]) u = nth_error tb u).
  { intros u L. apply nth_error_app1. exact L. }
  assert (Bv : forall p, (forall q, p = Some q -> (q < length tb)%nat) ->
     base_vars (mkreg (types r ++ [ty']) gs (S k)) p = base_vars r p /\
     base_funs (mkreg (types r ++ [ty']) gs (S k)) p = base_funs r p).
  { intros [q|] L; simpl; [|auto]. specialize (L q eq_refl).
    rewrite nth_error_app1 by (rewrite (I_len _ _ _ _ I); exact L). auto. }
  constructor; simpl; try reflexivity.
  - rewrite !app_length. simpl. rewrite (I_len _ _ _ _ I). reflexivity.
  - intros t c N. apply nth_error_snoc in N as [[L N]|[-> ->]].
    + destruct (I_at _ _ _ _ I t c N) as (ty & Nt & E1 & E2 & E3 & E4).
      exists ty. rewrite nth_error_app1 by (rewrite (I_len _ _ _ _ I); exact L).
      destruct (Bv (c_parent c)) as [B1 B2].
      { intros q Eq. pose proof (I_par _ _ _ _ I t c q N Eq). lia. }
      rewrite B1, B2. auto.
    + exists ty'. rewrite <- (I_len _ _ _ _ I), nth_error_app_last. simpl.
      destruct (Bv op Hp) as [B1 B2]. rewrite B1, B2, Et. simpl.
      rewrite !app_nil_r. auto.
  - intros t c p N E. apply nth_error_snoc in N as [[L N]|[-> ->]].
    + exact (I_par _ _ _ _ I t c p N E).
    + apply Hp. exact E.
  - rewrite map_app. simpl. apply NoDup_Add with (a := n) (l := map c_name tb).
    + rewrite <- (app_nil_r (map c_name tb)) at 1. apply Add_app.
    + split; [exact (I_names _ _ _ _ I)|]. intro H. apply in_map_iff in H as (c & E & Hc).
      apply In_nth_error in Hc as (j & Nj). apply Hn. exists j, c. auto.
  - intros t c N. apply nth_error_snoc in N as [[L N]|[-> ->]]; [exact (I_own _ _ _ _ I t c N)|].
    constructor.
  - intros t ty N. apply nth_error_snoc in N as [[L N]|[-> ->]]; [exact (I_vars _ _ _ _ I t ty N)|].
    rewrite Et. simpl. destruct op as [p|]; simpl; [|constructor].
    destruct (nth_error (types r) p) as [pt|] eqn:Np; [|constructor].
    exact (I_vars _ _ _ _ I p pt Np).
  - intros t v f Hv Hm.
    pose proof (nth_error_app_last tb (mkcls n op [] [])) as Nl.
    destruct (Nat.lt_trichotomy t (length tb)) as [L|[->|L]].
    + apply (var_agree _ _ _ Same Cl t v L) in Hv.
      apply (method_agree _ _ _ Same Cl t v f L) in Hm.
      exact (I_apart _ _ _ _ I t v f Hv Hm).
    + apply (var_inv _ _ _ v Nl) in Hv as [[]|(p & E & Hv)].
      apply (method_inv _ _ _ v f Nl) in Hm as [[]|(_ & p' & E' & Hm)]. simpl in E, E'.
      rewrite E in E'. inversion E'; subst p'.
      pose proof (Hp p E) as L.
      apply (var_agree _ _ _ Same Cl p v L) in Hv.
      apply (method_agree _ _ _ Same Cl p v f L) in Hm.
      exact (I_apart _ _ _ _ I p v f Hv Hm).
    + assert (nth_error (tb ++ [mkcls n op [] []]) t = None) as Z.
      { apply nth_error_None. rewrite app_length. simpl. lia. }
      destruct Hv; congruence.
Qed.

(** Changing a class no other class extends. *)
Lemma change_class r gs tb k t c vs ms ty k' :
  Inv r gs tb k ->
  nth_error tb t = Some c -> nth_error (types r) t = Some ty ->
  (forall u, ~ parent tb u t) ->
  NoDup (ty_vars ty ++ vs) -> NoDup (map fst (c_methods c ++ ms)) ->
  (forall v f, In v vs -> ~ method_of tb t v f) ->
  (forall n f, In (n, f) ms -> ~ has_var tb t n) -> (vs = [] \/ ms = []) ->
  Inv (mkreg (upd (types r) t (mktype (ty_name ty) (ty_bases ty) (ty_vars ty ++ vs)
                                      (ty_funs ty ++ own_syms t ms) (ty_init ty))) gs k')
      gs (upd tb t (mkcls (c_name c) (c_parent c) (c_vars c ++ vs) (c_methods c ++ ms))) k'.
Proof.
  intros I Nc Nt Leaf NDv NDm Av Am One.
  set (c' := mkcls (c_name c) (c_parent c) (c_vars c ++ vs) (c_methods c ++ ms)).
  set (ty' := mktype (ty_name ty) (ty_bases ty) (ty_vars ty ++ vs)
                (ty_funs ty ++ own_syms t ms) (ty_init ty)).
  destruct (inv_ty I t c ty Nc Nt) as (En & Eb & Ev & Ef).
  pose proof (nth_lt _ _ _ Nc) as Lt. pose proof (nth_lt _ _ _ Nt) as Lt'.
  assert (Same : forall u, u <> t -> nth_error (upd tb t c') u = nth_error tb u).
  { intros u N. apply nth_error_upd_neq'. auto. }
  assert (Cl : forall u p, u <> t -> parent tb u p -> p <> t).
  { intros u p _ Pr ->. exact (Leaf u Pr). }
  assert (Bv : forall u d, nth_error tb u = Some d ->
     base_vars (mkreg (upd (types r) t ty') gs k') (c_parent d) = base_vars r (c_parent d) /\
     base_funs (mkreg (upd (types r) t ty') gs k') (c_parent d) = base_funs r (c_parent d)).
  { intros u d Nd. destruct (c_parent d) as [q|] eqn:Eq; simpl; [|auto].
    assert (q <> t) by (intros ->; apply (Leaf u); exists d; auto).
    rewrite nth_error_upd_neq' by auto. auto. }
  constructor; simpl; try reflexivity.
  - rewrite !upd_length. exact (I_len _ _ _ _ I).
  - intros u d N. apply nth_error_upd_some in N as [(<- & -> & _)|[Ne N]].
    + exists ty'. rewrite nth_error_upd_eq by exact Lt'. subst c'. cbn [c_name c_parent c_vars c_methods].
      destruct (Bv t c Nc) as [B1 B2]. rewrite B1, B2. subst ty'. cbn.
      split; [reflexivity|]. split; [exact En|]. split; [exact Eb|].
      rewrite Ev, Ef. unfold own_syms. rewrite map_app, !app_assoc. auto.
    + destruct (I_at _ _ _ _ I u d N) as (tyu & Nu & H).
      exists tyu. rewrite nth_error_upd_neq' by exact Ne.
      destruct (Bv u d N) as [B1 B2]. rewrite B1, B2. auto.
  - intros u d p N E. apply nth_error_upd_some in N as [(<- & -> & _)|[Ne N]].
    + exact (I_par _ _ _ _ I t c p Nc E).
    + exact (I_par _ _ _ _ I u d p N E).
  - rewrite map_upd. simpl. rewrite upd_same; [exact (I_names _ _ _ _ I)|].
    erewrite map_nth_error; [reflexivity|exact Nc].
  - intros u d N. apply nth_error_upd_some in N as [(<- & -> & _)|[Ne N]].
    + exact NDm.
    + exact (I_own _ _ _ _ I u d N).
  - intros u d N. apply nth_error_upd_some in N as [(<- & -> & _)|[Ne N]].
    + exact NDv.
    + exact (I_vars _ _ _ _ I u d N).
  - intros u v f Hv Hm. destruct (Nat.eq_dec u t) as [->|Ne].
    + assert (nth_error (upd tb t c') t = Some c') as Nl by (apply nth_error_upd_eq; exact Lt).
      assert (Hpar : forall p, c_parent c = Some p -> p <> t).
      { intros p E. pose proof (I_par _ _ _ _ I t c p Nc E). lia. }
      apply (var_inv _ _ _ v Nl) in Hv.
      apply (method_inv _ _ _ v f Nl) in Hm. subst c'. simpl in Hv, Hm.
      assert (V : has_var tb t v \/ In v vs).
      { destruct Hv as [Hv|(p & E & Hv)].
        - apply in_app_iff in Hv as [Hv|Hv]; [left|right; exact Hv]. eapply own_var; eauto.
        - left. eapply inherited_var; eauto.
          apply (var_agree _ _ _ Same Cl p v (Hpar p E)). exact Hv. }
      assert (M : method_of tb t v f \/ In (v, f) ms).
      { destruct Hm as [Hm|(NI & p & E & Hm)].
        - apply in_app_iff in Hm as [Hm|Hm]; [left|right; exact Hm]. eapply own_method; eauto.
        - left. eapply inherited_method; eauto.
          + intro H. apply NI. rewrite map_app, in_app_iff. left. exact H.
          + apply (method_agree _ _ _ Same Cl p v f (Hpar p E)). exact Hm. }
      destruct V as [V|V], M as [M|M].
      * exact (I_apart _ _ _ _ I t v f V M).
      * exact (Am v f M V).
      * exact (Av v f V M).
      * destruct One; subst; [destruct V|destruct M].
    + apply (var_agree _ _ _ Same Cl u v Ne) in Hv.
      apply (method_agree _ _ _ Same Cl u v f Ne) in Hm.
      exact (I_apart _ _ _ _ I u v f Hv Hm).
Qed.

(** ** Steps *)

Lemma is_type_upd r i ty ty' n g k :
  nth_error (types r) i = Some ty -> ty_name ty' = ty_name ty ->
  is_type (mkreg (upd (types r) i ty') g k) n = is_type r n.
Proof.
  intros N E. destruct (is_type r n) eqn:T.
  - apply is_type_spec in T as (j & t & Nj & En). apply is_type_spec. simpl.
    destruct (Nat.eq_dec i j) as [->|Ne].
    + exists j, ty'. rewrite nth_error_upd_eq by exact (nth_lt _ _ _ N).
      split; [reflexivity|]. congruence.
    + exists j, t. rewrite nth_error_upd_neq' by exact Ne. auto.
  - rewrite is_type_false in *. simpl. intros j t Nj.
    apply nth_error_upd_some in Nj as [(<- & -> & _)|[_ Nj]]; [rewrite E|]; eauto.
Qed.

Lemma scope_has_false ty n :
  scope_has ty n = false <-> ~ In n (ty_vars ty) /\ last_fun (ty_funs ty) n = None.
Proof.
  unfold scope_has. rewrite orb_false_iff, mem_false, <- first_fun_none.
  destruct (first_fun ty n); split; intros [A B]; split; congruence.
Qed.

Lemma upd_upd {A} (l : list A) i x y : upd (upd l i x) i y = upd l i y.
Proof. revert i; induction l as [|a l IH]; intros [|i]; simpl; auto. rewrite IH. reflexivity. Qed.

Lemma copy_vars_ok vs : forall r i ty,
  nth_error (types r) i = Some ty ->
  (forall v, In v vs -> is_type r v = false /\ last_fun (ty_funs ty) v = None) ->
  NoDup (ty_vars ty ++ vs) ->
  copy_vars r i vs =
    Ret (set_type r i (mktype (ty_name ty) (ty_bases ty) (ty_vars ty ++ vs) (ty_funs ty)
                              (ty_init ty))) tt.
Proof.
  induction vs as [|v vs IH]; intros r i ty N H ND; simpl.
  - rewrite app_nil_r. unfold set_type.
    replace (upd (types r) i _) with (types r); [destruct r; reflexivity|].
    symmetry. destruct ty; simpl. apply upd_same. exact N.
  - rewrite N. destruct (H v (or_introl eq_refl)) as [T F].
    assert (NV : ~ In v (ty_vars ty)).
    { apply NoDup_remove_2 in ND. rewrite in_app_iff in ND. tauto. }
    unfold pre_register. rewrite T. rewrite (proj2 (scope_has_false ty v)) by auto. simpl.
    set (ty1 := mktype (ty_name ty) (ty_bases ty) (ty_vars ty ++ [v]) (ty_funs ty) (ty_init ty)).
    rewrite (IH (set_type r i ty1) i ty1).
    + unfold set_type. simpl. rewrite upd_upd, <- app_assoc. reflexivity.
    + simpl. apply nth_error_upd_eq. exact (nth_lt _ _ _ N).
    + intros w Iw. destruct (H w (or_intror Iw)) as [Tw Fw]. split; [|exact Fw].
      rewrite <- Tw. apply (is_type_upd r i ty ty1); auto.
    + subst ty1. simpl. rewrite <- app_assoc. exact ND.
Qed.

Lemma is_type_snoc r t n g k :
  is_type (mkreg (types r ++ [t]) g k) n = is_type r n || name_eqb (ty_name t) n.
Proof.
  destruct (is_type r n) eqn:T; simpl.
  - apply is_type_spec in T as (j & t' & N & E). apply is_type_spec. exists j, t'. simpl.
    rewrite nth_error_app1 by exact (nth_lt _ _ _ N). auto.
  - rewrite is_type_false in T. destruct (name_eqb (ty_name t) n) eqn:E.
    + apply is_type_spec. exists (length (types r)), t. simpl.
      rewrite nth_error_app_last. split; [reflexivity | apply name_eqb_spec; exact E].
    + apply is_type_false. simpl. intros j t' N.
      apply nth_error_snoc in N as [[_ N]|[_ ->]]; [eauto | apply name_eqb_false; exact E].
Qed.

Lemma find_type_snoc_old r t n g k i :
  find_type r n = Some i -> find_type (mkreg (types r ++ [t]) g k) n = Some i.
Proof.
  intro H. apply find_type_some in H as (ti & N & E & F).
  apply (find_type_first _ n i ti); simpl.
  - rewrite nth_error_app1 by exact (nth_lt _ _ _ N). exact N.
  - exact E.
  - intros j' t' L N'. apply (F j' t' L). pose proof (nth_lt _ _ _ N).
    rewrite nth_error_app1 in N' by lia. exact N'.
Qed.

Lemma check_type_name_ok r gs tb k n :
  Inv r gs tb k -> (length tb < MAX_CLASSES)%nat -> n <> [] -> ~ class_name tb n -> ~ In n gs ->
  check_type_name r n = true.
Proof.
  intros I L N C G. unfold check_type_name.
  rewrite (I_len _ _ _ _ I), (proj2 (Nat.ltb_lt _ _) L), (inv_not_type I n C).
  rewrite (I_globals _ _ _ _ I), (proj2 (mem_false n gs) G).
  destruct n; [congruence|reflexivity].
Qed.

Lemma step_class r gs tb k n :
  Inv r gs tb k -> check_type_name r n = true -> ~ class_name tb n ->
  exists r', t_step r (DClass n []) = Some (r', true) /\
             Inv r' gs (tb ++ [mkcls n None [] []]) (S k).
Proof.
  intros I Ck Hn. unfold t_step, register_type. rewrite Ck.
  cbn [bind]. cbn [types globals nfun]. rewrite nth_error_app_last, upd_snoc.
  eexists. split; [reflexivity|]. cbn [ty_name ty_bases ty_vars ty_funs].
  rewrite (I_globals _ _ _ _ I), (I_nfun _ _ _ _ I).
  apply (add_class r gs tb k n None); auto. intros p E. discriminate.
Qed.

Lemma step_extends r gs tb k n b p :
  Inv r gs tb k -> check_type_name r n = true -> b <> [] -> ~ class_name tb n ->
  named tb b p ->
  (forall v, has_var tb p v -> v <> n /\ ~ class_name tb v) ->
  exists r', t_step r (DClass n b) = Some (r', true) /\
             Inv r' gs (tb ++ [mkcls n (Some p) [] []]) (S k).
Proof.
  intros I Ck Hb Hn Hp Hv. unfold t_step, register_type. rewrite Ck.
  set (t0 := mktype n [] [] [] false).
  destruct b as [|b0 b1] eqn:Eb; [congruence|]. rewrite <- Eb in *.
  destruct Hp as (c & Nc & En). destruct (I_at _ _ _ _ I p c Nc) as (pt & Np & En' & _).
  assert (F : find_type r b = Some p) by (apply (inv_find I); exists c; auto).
  unfold inherit. rewrite (find_type_snoc_old r t0 b _ _ p F).
  cbn [types globals nfun].
  rewrite nth_error_app1 by exact (nth_lt _ _ _ Np). rewrite Np, nth_error_app_last.
  unfold set_type at 1. cbn [types globals nfun]. rewrite upd_snoc.
  set (t1 := mktype _ _ _ _ _).
  assert (N1 : nth_error (types (mkreg (types r ++ [t1]) (globals r) (nfun r))) (length (types r))
               = Some t1) by (simpl; apply nth_error_app_last).
  rewrite (copy_vars_ok (ty_vars pt) _ _ t1 N1).
  - cbn [bind]. unfold set_type. cbn [types globals nfun]. rewrite upd_snoc, nth_error_app_last, upd_snoc.
    cbn [types globals nfun bind]. rewrite nth_error_app_last, upd_snoc.
    eexists. split; [reflexivity|]. subst t1 t0. cbn.
    rewrite (I_globals _ _ _ _ I), (I_nfun _ _ _ _ I).
    apply (add_class r gs tb k n (Some p)); auto.
    + intros q E. inversion E; subst. exact (nth_lt _ _ _ Nc).
    + simpl. rewrite Np. reflexivity.
  - intros v Iv. pose proof (proj1 (inv_vars I p pt v Np) Iv) as Hv1.
    destruct (Hv v Hv1) as [A B]. split.
    + rewrite is_type_snoc. rewrite (inv_not_type I v B). simpl.
      apply name_eqb_false. congruence.
    + subst t1. simpl. apply (inv_no_fun I p pt v Np). intro f. exact (I_apart _ _ _ _ I p v f Hv1).
  - subst t1 t0. simpl. exact (I_vars _ _ _ _ I p pt Np).
Qed.

Lemma step_var r gs tb k t c v :
  Inv r gs tb k -> nth_error tb t = Some c -> (forall u, ~ parent tb u t) ->
  ~ class_name tb v -> ~ has_var tb t v -> (forall f, ~ method_of tb t v f) ->
  exists r', t_step r (DVar t v) = Some (r', true) /\
    Inv r' gs (upd tb t (mkcls (c_name c) (c_parent c) (c_vars c ++ [v]) (c_methods c))) k.
Proof.
  intros I Nc Leaf Hc Hv Hm. destruct (I_at _ _ _ _ I t c Nc) as (ty & Nt & _).
  assert (V : ~ In v (ty_vars ty)) by (rewrite (inv_vars I t ty v Nt); exact Hv).
  assert (S : scope_has ty v = false).
  { apply scope_has_false. split; [exact V|]. apply (inv_no_fun I t ty v Nt). exact Hm. }
  unfold t_step, register_variable, pre_register. rewrite Nt, S, (inv_not_type I v Hc). simpl.
  eexists. split; [reflexivity|]. unfold set_type.
  rewrite (I_globals _ _ _ _ I), (I_nfun _ _ _ _ I).
  pose proof (change_class r gs tb k t c [v] [] ty k I Nc Nt Leaf) as H.
  unfold own_syms in H. simpl in H. rewrite !app_nil_r in H. apply H; clear H.
  - apply NoDup_Add with (a := v) (l := ty_vars ty).
    + rewrite <- (app_nil_r (ty_vars ty)) at 1. apply Add_app.
    + split; [exact (I_vars _ _ _ _ I t ty Nt) | exact V].
  - exact (I_own _ _ _ _ I t c Nc).
  - intros w f [<-|[]]. apply Hm.
  - intros n f [].
  - right. reflexivity.
Qed.

Lemma step_fun r gs tb k t c n :
  Inv r gs tb k -> nth_error tb t = Some c -> (forall u, ~ parent tb u t) ->
  (~ class_name tb n \/ n = c_name c) -> ~ has_var tb t n -> ~ In n (map fst (c_methods c)) ->
  exists r', t_step r (DFun t n) = Some (r', true) /\
    Inv r' gs (upd tb t (mkcls (c_name c) (c_parent c) (c_vars c) (c_methods c ++ [(n, k)]))) (S k).
Proof.
  intros I Nc Leaf Hc Hv Hm. destruct (I_at _ _ _ _ I t c Nc) as (ty & Nt & En & _ & _ & Ef).
  assert (V : ~ In n (ty_vars ty)) by (rewrite (inv_vars I t ty n Nt); exact Hv).
  assert (T : negb (is_type r n) || name_eqb n (ty_name ty) = true).
  { destruct Hc as [Hc|Hc]; [rewrite (inv_not_type I n Hc); reflexivity|].
    rewrite orb_true_iff. right. apply name_eqb_spec. congruence. }
  assert (O : forall s, In s (ty_funs ty) -> s_name s = n -> s_owner s <> t).
  { intros s H E Eo. rewrite Ef, in_app_iff in H. destruct H as [H|H].
    - pose proof (inv_base_owners I t c s Nc H). lia.
    - unfold own_syms in H. apply in_map_iff in H as ([m f] & <- & H). simpl in E. subst m.
      apply Hm. apply in_map_iff. exists (n, f). auto. }
  assert (R : Inv (mkreg (upd (types r) t
                     (mktype (ty_name ty) (ty_bases ty) (ty_vars ty)
                        (ty_funs ty ++ [mksym n (nfun r) t]) (ty_init ty)))
                     (globals r) (S (nfun r))) gs
             (upd tb t (mkcls (c_name c) (c_parent c) (c_vars c) (c_methods c ++ [(n, k)]))) (S k)).
  { rewrite (I_globals _ _ _ _ I), (I_nfun _ _ _ _ I).
    pose proof (change_class r gs tb k t c [] [(n, k)] ty (S k) I Nc Nt Leaf) as H.
    unfold own_syms in H. simpl in H. rewrite !app_nil_r in H. apply H; clear H.
    - exact (I_vars _ _ _ _ I t ty Nt).
    - rewrite map_app. simpl. apply NoDup_Add with (a := n) (l := map fst (c_methods c)).
      + rewrite <- (app_nil_r (map fst (c_methods c))) at 1. apply Add_app.
      + split; [exact (I_own _ _ _ _ I t c Nc) | exact Hm].
    - intros w f [].
    - intros m f [E|[]]. inversion E; subst. exact Hv.
    - left. reflexivity. }
  unfold t_step, register_function. rewrite Nt, (proj2 (mem_false _ _) V).
  destruct (last_fun (ty_funs ty) n) as [s|] eqn:L.
  - apply last_fun_in in L as L1. destruct L1 as [Is Es].
    rewrite (proj2 (Nat.eqb_neq _ _) (O s Is Es)).
    destruct (first_fun ty n) as [s1|] eqn:F.
    + unfold first_fun in F. apply find_some in F as [I1 E1]. apply name_eqb_spec in E1.
      rewrite (proj2 (Nat.eqb_neq _ _) (O s1 I1 E1)). simpl. eauto.
    + apply first_fun_none in F. congruence.
  - rewrite T. rewrite (proj2 (scope_has_false ty n)) by auto. simpl. eauto.
Qed.

Lemma step_global r gs tb k n :
  Inv r gs tb k -> ~ class_name tb n -> ~ In n gs ->
  exists r', t_step r (DGlobal n) = Some (r', true) /\ Inv r' (n :: gs) tb k.
Proof.
  intros I Hc Hg. unfold t_step, register_global.
  rewrite (inv_not_type I n Hc), (I_globals _ _ _ _ I), (proj2 (mem_false _ _) Hg). simpl.
  eexists. split; [reflexivity|]. destruct I. constructor; simpl; auto.
Qed.

Lemma step_refines r gs tb k o gs' tb' k' :
  Inv r gs tb k -> declares gs tb k o gs' tb' k' ->
  exists r', t_step r o = Some (r', true) /\ Inv r' gs' tb' k'.
Proof.
  intros I D. destruct D.
  - apply step_class; auto. eapply check_type_name_ok; eauto.
  - apply step_extends; auto. eapply check_type_name_ok; eauto.
  - apply step_var; auto.
  - apply step_fun; auto.
  - apply step_global; auto.
Qed.

Lemma run_refines r gs tb k os gs' tb' k' :
  program gs tb k os gs' tb' k' -> Inv r gs tb k ->
  exists r', t_run r os = Some (r', map (fun _ => true) os) /\ Inv r' gs' tb' k'.
Proof.
  intro P. revert r. induction P as [|gs tb k o os gs1 tb1 k1 gs2 tb2 k2 D P IH]; intros r I.
  - exists r. auto.
  - destruct (step_refines r _ _ _ _ _ _ _ I D) as (r1 & E1 & I1).
    destruct (IH r1 I1) as (r2 & E2 & I2). exists r2. simpl. rewrite E1, E2. auto.
Qed.

(** ** Names and bases along any history *)

Definition sig (t : stype) : name * list nat := (ty_name t, ty_bases t).
Definition sigs (r : registry) : list (name * list nat) := map sig (types r).

Lemma sigs_upd r i ty ty' g k :
  nth_error (types r) i = Some ty -> sig ty' = sig ty ->
  sigs (mkreg (upd (types r) i ty') g k) = sigs r.
Proof.
  intros N E. unfold sigs. simpl. rewrite map_upd, E. apply upd_same.
  erewrite map_nth_error; [reflexivity | exact N].
Qed.

Lemma copy_vars_sigs vs : forall r i,
  (i < length (types r))%nat ->
  match copy_vars r i vs with
  | Ret r' _ | Exc r' => sigs r' = sigs r
  | Undef => False
  end.
Proof.
  induction vs as [|v vs IH]; intros r i L; simpl; [reflexivity|].
  destruct (nth_error (types r) i) as [ty|] eqn:N.
  - destruct (pre_register r ty v); [|reflexivity].
    set (ty1 := mktype _ _ _ _ _).
    assert (L1 : (i < length (types (set_type r i ty1)))%nat) by (simpl; rewrite upd_length; exact L).
    specialize (IH (set_type r i ty1) i L1).
    assert (E : sigs (set_type r i ty1) = sigs r) by (apply (sigs_upd r i ty); auto).
    destruct (copy_vars (set_type r i ty1) i vs); congruence.
  - apply nth_error_None in N. lia.
Qed.

Lemma sigs_length r : length (sigs r) = length (types r).
Proof. apply map_length. Qed.

Lemma sigs_len_eq r r' : sigs r = sigs r' -> length (types r) = length (types r').
Proof. intro H. rewrite <- !sigs_length. congruence. Qed.

Definition pushed (r : registry) (n : name) : registry :=
  mkreg (types r ++ [mktype n [] [] [] false]) (globals r) (nfun r).

Lemma register_type_sigs r n b :
  check_type_name r n = true ->
  (exists r', b <> [] /\ register_type r n b = Exc r' /\ sigs r' = sigs r ++ [(n, [])] /\
              length (types r') = S (length (types r))) \/
  (exists r', register_type r n b = Ret r' (length (types r)) /\
     ((b = [] /\ sigs r' = sigs r ++ [(n, [])]) \/
      (b <> [] /\ exists bi, find_type (pushed r n) b = Some bi /\ sigs r' = sigs r ++ [(n, [bi])]))).
Proof.
  intro Ck. unfold register_type. rewrite Ck. fold (pushed r n).
  assert (Sp : sigs (pushed r n) = sigs r ++ [(n, [])]).
  { unfold sigs, pushed. simpl. rewrite map_app. reflexivity. }
  destruct b as [|b0 b1] eqn:Eb.
  - right. cbn [bind]. unfold pushed at 1. cbn [types]. rewrite nth_error_app_last.
    eexists. split; [reflexivity|]. left. split; [reflexivity|].
    rewrite <- Sp. cbn [ty_name ty_bases ty_vars ty_funs globals nfun].
    apply (sigs_upd (pushed r n) (length (types r)) (mktype n [] [] [] false)).
    + apply nth_error_app_last.
    + reflexivity.
  - rewrite <- Eb. assert (b <> []) as Hb by congruence.
    unfold inherit. destruct (find_type (pushed r n) b) as [bi|] eqn:F.
    + apply find_type_some in F as Fs. destruct Fs as (bt & Nb & _). rewrite Nb.
      assert (Np : nth_error (types (pushed r n)) (length (types r)) = Some (mktype n [] [] [] false))
        by (apply nth_error_app_last).
      rewrite Np. set (r1 := set_type _ _ _).
      assert (S1 : sigs r1 = sigs r ++ [(n, [])]).
      { rewrite <- Sp. apply (sigs_upd (pushed r n) _ (mktype n [] [] [] false)); [exact Np|reflexivity]. }
      assert (L1 : (length (types r) < length (types r1))%nat).
      { rewrite <- (sigs_length r1), S1, app_length, sigs_length. simpl. lia. }
      pose proof (copy_vars_sigs (ty_vars bt) r1 _ L1) as C.
      destruct (copy_vars r1 (length (types r)) (ty_vars bt)) as [r2 []|r2|]; [| |contradiction].
      * right. cbn [bind].
        destruct (nth_error (types r2) (length (types r))) as [ty2|] eqn:N2.
        2:{ exfalso. apply nth_error_None in N2. pose proof (sigs_len_eq _ _ C). lia. }
        cbn [bind]. unfold set_type. cbn [types globals nfun].
        rewrite nth_error_upd_eq by exact (nth_lt _ _ _ N2).
        eexists. split; [reflexivity|]. right. split; [exact Hb|]. exists bi. split; [reflexivity|].
        cbn [ty_name ty_bases ty_vars ty_funs]. rewrite upd_upd.
        unfold sigs. cbn [types]. rewrite map_upd. cbn [sig ty_name ty_bases].
        fold (sigs r2).
        assert (E2 : sig ty2 = (n, [])).
        { assert (nth_error (sigs r2) (length (types r)) = Some (sig ty2)) as A
            by (unfold sigs; erewrite map_nth_error; [reflexivity|exact N2]).
          rewrite C, S1 in A. rewrite <- sigs_length in A. rewrite nth_error_app_last in A.
          congruence. }
        unfold sig in E2. inversion E2 as [[E3 E4]]. unfold sig. cbn [ty_name ty_bases].
        rewrite E3, E4. simpl. rewrite C, S1, <- sigs_length. apply upd_snoc.
      * left. exists r2. cbn [bind]. split; [exact Hb|]. split; [reflexivity|].
        split; [congruence|]. rewrite (sigs_len_eq _ _ C).
        rewrite <- (sigs_length r1), S1, app_length, sigs_length. simpl. lia.
    + left. exists (pushed r n). cbn [bind]. split; [exact Hb|]. split; [reflexivity|].
      split; [exact Sp|]. unfold pushed. simpl. rewrite app_length. simpl. lia.
Qed.

Lemma step_sigs r o r' ok :
  t_step r o = Some (r', ok) ->
  sigs r' = sigs r \/
  exists n b, o = DClass n b /\
    (sigs r' = sigs r ++ [(n, [])] \/
     (b <> [] /\ exists bi, find_type (pushed r n) b = Some bi /\ sigs r' = sigs r ++ [(n, [bi])])).
Proof.
  destruct o as [n b|t n|t n|n]; unfold t_step; intro H.
  - destruct (check_type_name r n) eqn:Ck.
    + right. exists n, b. split; [reflexivity|].
      destruct (register_type_sigs r n b Ck) as [(r1 & Hb & E & S & _)|(r1 & E & S)]; rewrite E in H;
        inversion H; subst.
      * left. exact S.
      * destruct S as [[_ S]|S]; [left; exact S | right; exact S].
    + unfold register_type in H. rewrite Ck in H. inversion H. left. reflexivity.
  - left. unfold register_variable in H.
    destruct (nth_error (types r) t) as [ty|] eqn:N; [|discriminate].
    destruct (scope_has ty n); [inversion H; reflexivity|].
    destruct (pre_register r ty n); inversion H; [|reflexivity].
    apply (sigs_upd r t ty); auto.
  - left. unfold register_function in H.
    destruct (nth_error (types r) t) as [ty|] eqn:N; [|discriminate].
    destruct (mem n (ty_vars ty)); [discriminate|].
    destruct (last_fun (ty_funs ty) n) as [s|];
      [destruct (Nat.eqb (s_owner s) t); [inversion H; reflexivity|]|];
      match type of H with context [if ?c then _ else _] => destruct c end; inversion H;
      try reflexivity; apply (sigs_upd r t ty); auto.
  - left. unfold register_global in H. destruct (is_type r n || mem n (globals r)); inversion H;
      reflexivity.
Qed.

(** Every base was registered before the type. *)
Definition grounded (r : registry) : Prop :=
  forall t ty b, nth_error (types r) t = Some ty -> In b (ty_bases ty) -> (b < t)%nat.

Lemma grounded_sigs r :
  grounded r <-> forall t n bs b, nth_error (sigs r) t = Some (n, bs) -> In b bs -> (b < t)%nat.
Proof.
  unfold grounded, sigs. split.
  - intros H t n bs b N I. rewrite nth_error_map in N.
    destruct (nth_error (types r) t) as [ty|] eqn:E; [|discriminate]. inversion N; subst. eauto.
  - intros H t ty b N I. apply (H t (ty_name ty) (ty_bases ty) b); [|exact I].
    erewrite map_nth_error; [reflexivity|exact N].
Qed.

Lemma find_pushed_other r n b bi :
  n <> b -> find_type (pushed r n) b = Some bi ->
  (bi < length (types r))%nat /\ find_type r b = Some bi.
Proof.
  intros Ne F. apply find_type_some in F as (t & N & E & Fst). unfold pushed in *. simpl in *.
  apply nth_error_snoc in N as [[L N]|[-> ->]]; [|simpl in E; congruence].
  split; [exact L|]. apply (find_type_first r b bi t N E).
  intros j' t' Lj Nj. apply (Fst j' t' Lj). rewrite nth_error_app1; [exact Nj|lia].
Qed.

Lemma step_grounded r o r' ok :
  (forall n, o = DClass n n -> n = []) -> grounded r -> t_step r o = Some (r', ok) -> grounded r'.
Proof.
  intros Self G H. rewrite grounded_sigs in *. apply step_sigs in H as [H|(n & b & -> & H)].
  - rewrite H. exact G.
  - destruct H as [H|(Hb & bi & F & H)]; rewrite H; intros t m bs q N I;
      (apply nth_error_snoc in N as [[L N]|[-> E]]; [eauto|]); inversion E; subst.
    + destruct I.
    + destruct I as [<-|[]]. rewrite sigs_length.
      apply (find_pushed_other r n b bi); [|exact F]. intros ->. apply Hb. apply Self. reflexivity.
Qed.

Lemma run_grounded os : forall r r' oks,
  (forall n, In (DClass n n) os -> n = []) -> grounded r -> t_run r os = Some (r', oks) -> grounded r'.
Proof.
  induction os as [|o os IH]; intros r r' oks Self G H; simpl in H.
  - inversion H; subst. exact G.
  - destruct (t_step r o) as [[r1 ok]|] eqn:S; [|discriminate].
    destruct (t_run r1 os) as [[r2 oks2]|] eqn:R; [|discriminate]. inversion H; subst.
    apply (IH r1 r' oks2); [|eapply step_grounded; eauto|exact R].
    + intros n I. apply Self. right. exact I.
    + intros n ->. apply Self. left. reflexivity.
Qed.

Lemma start_grounded bs : grounded (start bs).
Proof.
  intros t ty b N I. unfold start in N. simpl in N. rewrite nth_error_map in N.
  destruct (nth_error bs t); inversion N; subst ty. destruct I.
Qed.

(** ** instanceof *)

Definition base (r : registry) (t b : nat) : Prop :=
  exists ty, nth_error (types r) t = Some ty /\ In b (ty_bases ty).

Lemma inherits_eq fuel r t u :
  inherits (S fuel) r t u =
    if Nat.eqb t u then Ok true
    else match nth_error (types r) t with
         | None => Thr
         | Some ty =>
             (fix any (bs : list nat) : res bool :=
                match bs with
                | [] => Ok false
                | b :: bs' => do x <- inherits fuel r b u; if x then Ok true else any bs'
                end) (ty_bases ty)
         end.
Proof. reflexivity. Qed.

Lemma rt_inv r t u :
  clos_refl_trans nat (base r) t u ->
  t = u \/ exists b, base r t b /\ clos_refl_trans nat (base r) b u.
Proof.
  intro H. apply clos_rt_rt1n in H. inversion H as [|b u' Hb Hc]; subst; [left; reflexivity|].
  right. exists b. split; [exact Hb|]. apply clos_rt1n_rt. exact Hc.
Qed.

Lemma inherits_spec r : grounded r -> forall fuel t u,
  (t < fuel)%nat -> (t < length (types r))%nat ->
  exists x, inherits fuel r t u = Ok x /\ (x = true <-> clos_refl_trans nat (base r) t u).
Proof.
  intro G. induction fuel as [|fuel IH]; intros t u Lf Lt; [lia|].
  rewrite inherits_eq. destruct (Nat.eqb_spec t u) as [->|Ne].
  - exists true. split; [reflexivity|]. split; [intros _; apply rt_refl | reflexivity].
  - destruct (nth_error (types r) t) as [ty|] eqn:N; [|apply nth_error_None in N; lia].
    assert (Hb : forall b, In b (ty_bases ty) -> (b < fuel)%nat /\ (b < length (types r))%nat).
    { intros b I. pose proof (G t ty b N I). lia. }
    assert (A : forall bs, (forall b, In b bs -> In b (ty_bases ty)) ->
      exists x, (fix any (bs : list nat) : res bool :=
                match bs with
                | [] => Ok false
                | b :: bs' => do x <- inherits fuel r b u; if x then Ok true else any bs'
                end) bs = Ok x /\
        (x = true <-> exists b, In b bs /\ clos_refl_trans nat (base r) b u)).
    { induction bs as [|b bs IHb]; intro Sub.
      - exists false. split; [reflexivity|]. split; [discriminate|]. intros (b & [] & _).
      - destruct (Hb b (Sub b (or_introl eq_refl))) as [L1 L2].
        destruct (IH b u L1 L2) as (x & Ex & Hx). rewrite Ex. cbn [rbind].
        destruct x.
        + exists true. split; [reflexivity|]. split; [|reflexivity]. intros _.
          exists b. split; [left; reflexivity | apply Hx; reflexivity].
        + destruct IHb as (y & Ey & Hy); [intros c I; apply Sub; right; exact I|].
          exists y. split; [exact Ey|]. rewrite Hy. split.
          * intros (c & I & C). exists c. split; [right; exact I | exact C].
          * intros (c & [<-|I] & C); [apply Hx in C; discriminate | eauto]. }
    destruct (A (ty_bases ty) (fun b I => I)) as (x & Ex & Hx). exists x. split; [exact Ex|].
    rewrite Hx. split.
    + intros (b & I & C). eapply rt_trans; [apply rt_step; exists ty; eauto | exact C].
    + intro C. apply rt_inv in C as [C|(b & (ty' & N' & I) & C)]; [contradiction|].
      rewrite N in N'. inversion N'; subst. eauto.
Qed.

Lemma walk_spec r : grounded r -> forall fuel t,
  (t < fuel)%nat -> (t < length (types r))%nat -> walk_bases fuel r t = Ok tt.
Proof.
  intro G. induction fuel as [|fuel IH]; intros t Lf Lt; [lia|]. simpl.
  destruct (nth_error (types r) t) as [ty|] eqn:N; [|apply nth_error_None in N; lia].
  destruct (ty_bases ty) as [|b bs] eqn:E; [reflexivity|].
  assert (b < t)%nat by (apply (G t ty b N); rewrite E; left; reflexivity).
  apply IH; lia.
Qed.

Lemma inv_grounded r gs tb k : Inv r gs tb k -> grounded r.
Proof.
  intros I t ty b N Ib. destruct (inv_class I t ty N) as (c & Nc).
  destruct (inv_ty I t c ty Nc N) as (_ & Eb & _). rewrite Eb in Ib.
  destruct (c_parent c) as [p|] eqn:E; simpl in Ib; [|contradiction].
  destruct Ib as [<-|[]]. exact (I_par _ _ _ _ I t c p Nc E).
Qed.

Lemma inv_base r gs tb k t b : Inv r gs tb k -> (base r t b <-> parent tb t b).
Proof.
  intro I. split.
  - intros (ty & N & Ib). destruct (inv_class I t ty N) as (c & Nc).
    destruct (inv_ty I t c ty Nc N) as (_ & Eb & _). rewrite Eb in Ib.
    destruct (c_parent c) as [p|] eqn:E; simpl in Ib; [|contradiction].
    destruct Ib as [<-|[]]. exists c. auto.
  - intros (c & Nc & E). destruct (I_at _ _ _ _ I t c Nc) as (ty & N & _ & Eb & _).
    exists ty. split; [exact N|]. rewrite Eb, E. left. reflexivity.
Qed.

Lemma inv_subclass r gs tb k t u :
  Inv r gs tb k -> (clos_refl_trans nat (base r) t u <-> subclass tb t u).
Proof.
  intro I. unfold subclass. split; intro H.
  - induction H; [apply rt_step; apply (inv_base r gs tb k); auto | apply rt_refl | eapply rt_trans; eauto].
  - induction H; [apply rt_step; apply (inv_base r gs tb k); auto | apply rt_refl | eapply rt_trans; eauto].
Qed.
