(** Theorems about classes: C58 (instanceof), C59 (failed registrations), C91 (which method a
    call runs), C92 (members declared twice). *)
From Coq Require Import List ZArith Bool Lia Relations Arith.
From Verif Require Import Base StringModel TypeModel TypeSpec TypeProofs.
Import ListNotations.
Open Scope nat_scope.

(** ** C58: instanceof is the reflexive and transitive closure of extends *)

(** After any history of declarations and failed declarations in which no class extends its
    own name, the test ends and decides the closure of the base relation. *)
Theorem C58_instanceof_partial : forall bs os r oks t u fuel,
  t_run (start bs) os = Some (r, oks) ->
  (forall n, In (DClass n n) os -> n = []) ->
  (t < length (types r))%nat -> (t < fuel)%nat ->
  exists x, instanceof fuel r t (Some u) = Ok x /\
    (x = true <->
     clos_refl_trans nat
       (fun a b => exists ty, nth_error (types r) a = Some ty /\ In b (ty_bases ty)) t u).
Proof.
  intros bs os r oks t u fuel H Self L F. unfold instanceof.
  apply (inherits_spec r (run_grounded os _ _ _ Self (start_grounded bs) H) fuel t u F L).
Qed.

(** The base relation is the declared one: an accepted `class n extends b` makes a new type,
    named n, whose only base is the type named b; nothing else gets a base. *)
Theorem C58_base_is_declared : forall r n b r',
  t_step r (DClass n b) = Some (r', true) -> n <> b ->
  exists bases,
    map (fun t => (ty_name t, ty_bases t)) (types r') =
    map (fun t => (ty_name t, ty_bases t)) (types r) ++ [(n, bases)] /\
    ((b = [] /\ bases = []) \/
     exists p tp, bases = [p] /\ nth_error (types r) p = Some tp /\ ty_name tp = b).
Proof.
  intros r n b r' H Ne. unfold t_step in H. destruct (check_type_name r n) eqn:Ck.
  - destruct (register_type_sigs r n b Ck) as [(r1 & _ & E & _)|(r1 & E & S)]; rewrite E in H;
      inversion H; subst.
    destruct S as [[-> S]|(Hb & bi & F & S)]; [exists []; auto|].
    exists [bi]. split; [exact S|]. right.
    destruct (find_pushed_other r n b bi Ne F) as [L F'].
    apply find_type_some in F' as (tp & N & En & _). eauto.
  - unfold register_type in H. rewrite Ck in H. discriminate.
Qed.

(** For a script whose declarations the language is meant to accept, instanceof is the
    subclass relation of the declarations. *)
Theorem C58_subclass : forall bs os gs tb k,
  NoDup bs -> program [] (table0 bs) 0 os gs tb k ->
  exists r, t_run (start bs) os = Some (r, map (fun _ => true) os) /\
    forall t u fuel, (t < length tb)%nat -> (t < fuel)%nat ->
      exists x, instanceof fuel r t (Some u) = Ok x /\ (x = true <-> subclass tb t u).
Proof.
  intros bs os gs tb k ND P. destruct (run_refines _ _ _ _ _ _ _ _ P (start_inv bs ND)) as (r & R & I).
  exists r. split; [exact R|]. intros t u fuel L F.
  rewrite <- (I_len _ _ _ _ I) in L.
  destruct (inherits_spec r (inv_grounded _ _ _ _ I) fuel t u F L) as (x & E & H).
  exists x. split; [exact E|]. rewrite H. exact (inv_subclass r gs tb k t u I).
Qed.

(** Making an object of a class ends too (the constructor walks the bases). *)
Theorem C58_new_object_partial : forall bs os r oks t fuel,
  t_run (start bs) os = Some (r, oks) ->
  (forall n, In (DClass n n) os -> n = []) ->
  (t < length (types r))%nat -> (t < fuel)%nat -> walk_bases fuel r t = Ok tt.
Proof.
  intros bs os r oks t fuel H Self L F.
  exact (walk_spec r (run_grounded os _ _ _ Self (start_grounded bs) H) fuel t F L).
Qed.

Lemma nth_sigs_last r x : nth_error (sigs r ++ [x]) (length (types r)) = Some x.
Proof. rewrite <- (sigs_length r). apply nth_error_app_last. Qed.

Lemma self_base r n :
  check_type_name r n = true ->
  exists r', t_step r (DClass n n) = Some (r', true) /\
    exists ty, nth_error (types r') (length (types r)) = Some ty /\
      ty_bases ty = [length (types r)].
Proof.
  intro Ck. unfold t_step.
  assert (n <> []) as Hn.
  { intros ->. unfold check_type_name in Ck. rewrite andb_false_r in Ck. discriminate. }
  assert (T : is_type r n = false).
  { unfold check_type_name in Ck. apply andb_true_iff in Ck as [Ck _].
    apply andb_true_iff in Ck as [_ Ck]. apply negb_true_iff in Ck. exact Ck. }
  assert (F : find_type (pushed r n) n = Some (length (types r))).
  { apply (find_type_first _ n _ (mktype n [] [] [] false)); [apply nth_error_app_last|reflexivity|].
    intros j t' L N. unfold pushed in N. simpl in N. rewrite nth_error_app1 in N by exact L.
    rewrite is_type_false in T. eauto. }
  destruct (register_type_sigs r n n Ck) as [(r1 & _ & E & _)|(r1 & E & S)].
  - exfalso. unfold register_type in E. rewrite Ck in E. fold (pushed r n) in E.
    destruct n as [|n0 n1]; [congruence|]. unfold inherit in E. rewrite F in E.
    assert (Np : nth_error (types (pushed r (n0 :: n1))) (length (types r))
                 = Some (mktype (n0 :: n1) [] [] [] false)) by apply nth_error_app_last.
    rewrite Np in E. cbn [ty_vars copy_vars bind] in E. unfold set_type in E. simpl in E.
    rewrite upd_snoc, nth_error_app_last in E. simpl in E.
    rewrite upd_snoc, nth_error_app_last in E. discriminate.
  - destruct S as [[-> _]|(_ & bi & F' & S)]; [congruence|].
    rewrite F in F'. inversion F'; subst bi. rewrite E. exists r1. split; [reflexivity|].
    assert (nth_error (sigs r1) (length (types r)) = Some (n, [length (types r)])) as N.
    { rewrite S. apply nth_sigs_last. }
    unfold sigs in N. rewrite nth_error_map in N.
    destruct (nth_error (types r1) (length (types r))) as [ty|]; [|discriminate].
    exists ty. inversion N. auto.
Qed.

(** `class A extends A` is accepted, and then instanceof with any other class, and making an
    object of the class, never end. *)
Theorem C58_self_extension_refuted : forall r n,
  check_type_name r n = true ->
  exists r', t_step r (DClass n n) = Some (r', true) /\
    (forall u fuel, u <> length (types r) -> instanceof fuel r' (length (types r)) (Some u) = Loop) /\
    (forall fuel, walk_bases fuel r' (length (types r)) = Loop).
Proof.
  intros r n Ck. destruct (self_base r n Ck) as (r' & S & ty & N & Eb).
  exists r'. split; [exact S|]. split.
  - intros u fuel Ne. unfold instanceof. induction fuel as [|fuel IH]; [reflexivity|].
    rewrite inherits_eq. destruct (Nat.eqb_spec (length (types r)) u) as [E|_]; [congruence|].
    rewrite N, Eb, IH. reflexivity.
  - intro fuel. induction fuel as [|fuel IH]; [reflexivity|]. simpl. rewrite N, Eb. exact IH.
Qed.

(** ** C59: a failed registration leaves the registry as it was *)

(** When the name itself is refused (too many classes, empty, already a class, already a
    variable or function), and for a class without `extends`, and for members and globals. *)
Theorem C59_failure_unchanged_partial : forall r o r',
  t_step r o = Some (r', false) ->
  match o with
  | DClass n b => b = [] \/ (MAX_CLASSES <= length (types r))%nat \/ n = [] \/ In n (globals r) \/
                  In n (map ty_name (types r))
  | _ => True
  end -> r' = r.
Proof.
  intros r o r' H G. destruct o as [n b|t n|t n|n]; unfold t_step in H.
  - destruct (check_type_name r n) eqn:Ck.
    + destruct G as [-> |G].
      * destruct (register_type_sigs r n [] Ck) as [(r1 & Hb & _)|(r1 & E & _)]; [congruence|].
        rewrite E in H. discriminate.
      * exfalso. unfold check_type_name in Ck.
        apply andb_true_iff in Ck as [Ck C4]. apply andb_true_iff in Ck as [Ck C3].
        apply andb_true_iff in Ck as [C1 C2]. apply Nat.ltb_lt in C1.
        apply negb_true_iff in C3, C4.
        destruct G as [G|[->|[G|G]]]; [lia|discriminate| |].
        -- apply mem_false in C4. contradiction.
        -- rewrite is_type_false in C3. apply in_map_iff in G as (t & E & It).
           apply In_nth_error in It as (j & N). exact (C3 j t N E).
    + unfold register_type in H. rewrite Ck in H. inversion H. reflexivity.
  - unfold register_variable in H. destruct (nth_error (types r) t) as [ty|]; [|discriminate].
    destruct (scope_has ty n); [inversion H; reflexivity|].
    destruct (pre_register r ty n); inversion H; reflexivity.
  - unfold register_function in H. destruct (nth_error (types r) t) as [ty|]; [|discriminate].
    destruct (mem n (ty_vars ty)); [discriminate|].
    destruct (last_fun (ty_funs ty) n) as [s|];
      [destruct (Nat.eqb (s_owner s) t); [inversion H; reflexivity|]|];
      match type of H with context [if ?c then _ else _] => destruct c end; inversion H; reflexivity.
  - unfold register_global in H. destruct (is_type r n || mem n (globals r)); inversion H; reflexivity.
Qed.

(** A class whose `extends` fails after its own name was accepted stays registered, without a
    base and without a field initializer; from then on its name is refused, even with a right
    declaration. *)
Theorem C59_extends_failure_refuted : forall r n b r',
  check_type_name r n = true -> t_step r (DClass n b) = Some (r', false) ->
  r' <> r /\
  (exists ty, nth_error (types r') (length (types r)) = Some ty /\ ty_name ty = n /\ ty_bases ty = []) /\
  forall b', t_step r' (DClass n b') = Some (r', false).
Proof.
  intros r n b r' Ck H. unfold t_step in H.
  destruct (register_type_sigs r n b Ck) as [(r1 & Hb & E & S & L)|(r1 & E & _)]; rewrite E in H;
    [|discriminate]. inversion H; subst r1.
  assert (exists ty, nth_error (types r') (length (types r)) = Some ty /\ ty_name ty = n /\
            ty_bases ty = []) as X.
  { assert (nth_error (sigs r') (length (types r)) = Some (n, [])) as N.
    { rewrite S. apply nth_sigs_last. }
    unfold sigs in N. rewrite nth_error_map in N.
    destruct (nth_error (types r') (length (types r))) as [ty|]; [|discriminate].
    exists ty. inversion N. auto. }
  split; [intros ->; lia|]. split; [exact X|].
  intro b'. unfold t_step, register_type. destruct X as (ty & N & En & _).
  assert (is_type r' n = true) as T by (apply is_type_spec; eauto).
  unfold check_type_name. rewrite T. simpl. rewrite andb_false_r. simpl. reflexivity.
Qed.

(** That happens for every base that is not a class. *)
Theorem C59_unknown_base_refuted : forall r n b,
  check_type_name r n = true -> b <> [] -> b <> n -> ~ In b (map ty_name (types r)) ->
  exists r', t_step r (DClass n b) = Some (r', false).
Proof.
  intros r n b Ck Hb Ne NI. unfold t_step.
  destruct (register_type_sigs r n b Ck) as [(r1 & _ & E & _)|(r1 & E & S)]; rewrite E; [eauto|].
  destruct S as [[-> _]|(_ & bi & F & _)]; [congruence|].
  exfalso. apply (find_pushed_other r n b bi) in F as [_ F]; [|congruence].
  apply find_type_some in F as (t & N & En & _). apply NI. apply in_map_iff. exists t.
  split; [exact En|]. eapply nth_error_In; eauto.
Qed.

(** And for a base with a member variable whose name is by now the name of a class, or is the
    name of the new class. *)
Theorem C59_inherited_name_refuted : forall r n b p tp v,
  check_type_name r n = true -> b <> [] ->
  find_type r b = Some p -> nth_error (types r) p = Some tp -> In v (ty_vars tp) ->
  (v = n \/ In v (map ty_name (types r))) ->
  exists r', t_step r (DClass n b) = Some (r', false).
Proof.
  intros r n b p tp v Ck Hb F Np Iv Hv. unfold t_step, register_type. rewrite Ck.
  destruct b as [|b0 b1]; [congruence|]. unfold inherit.
  rewrite (find_type_snoc_old r _ (b0 :: b1) _ _ p F). cbn [types globals nfun].
  rewrite nth_error_app1 by exact (nth_lt _ _ _ Np). rewrite Np, nth_error_app_last.
  unfold set_type. cbn [types globals nfun]. rewrite upd_snoc. set (t1 := mktype _ _ _ _ _).
  assert (C : forall vs r1 i, In v vs -> is_type r1 v = true -> (i < length (types r1))%nat ->
            exists r2, copy_vars r1 i vs = Exc r2).
  { induction vs as [|w vs IH]; intros r1 i Iw T L; [destruct Iw|]. simpl.
    destruct (nth_error (types r1) i) as [ty|] eqn:Ni; [|apply nth_error_None in Ni; lia].
    destruct (pre_register r1 ty w) eqn:Pr; [|eauto].
    destruct Iw as [->|Iw].
    - unfold pre_register in Pr. rewrite T in Pr. discriminate.
    - apply IH; [exact Iw| |simpl; rewrite upd_length; exact L].
      rewrite <- T. apply (is_type_upd r1 i ty); auto. }
  destruct (C (ty_vars tp) (mkreg (types r ++ [t1]) (globals r) (nfun r)) (length (types r)) Iv)
    as (r2 & E2).
  - apply is_type_spec. simpl. destruct Hv as [->|Hv].
    + exists (length (types r)), t1. rewrite nth_error_app_last. auto.
    + apply in_map_iff in Hv as (t & E & It). apply In_nth_error in It as (j & Nj).
      exists j, t. rewrite nth_error_app1 by exact (nth_lt _ _ _ Nj). auto.
  - simpl. rewrite app_length. simpl. lia.
  - rewrite E2. cbn [bind]. eauto.
Qed.

(** ** C91: a call runs the nearest declaration up the chain of classes *)

(** `o.m()` the first time a call site is executed, for scripts that declare the members of a
    class before the class is extended. *)
Theorem C91_nearest_declaration_partial : forall bs os gs tb k,
  NoDup bs -> program [] (table0 bs) 0 os gs tb k ->
  exists r, t_run (start bs) os = Some (r, map (fun _ => true) os) /\
    forall t n, (t < length tb)%nat ->
      (forall f, (exists s, lookup r t n = Some s /\ s_fun s = f) <-> method_of tb t n f) /\
      (forall f, snd (member_call r n None t) = TFun f <-> method_of tb t n f).
Proof.
  intros bs os gs tb k ND P. destruct (run_refines _ _ _ _ _ _ _ _ P (start_inv bs ND)) as (r & R & I).
  exists r. split; [exact R|]. intros t n L.
  rewrite <- (I_len _ _ _ _ I) in L.
  destruct (nth_error (types r) t) as [ty|] eqn:N; [|apply nth_error_None in N; lia].
  split; intro f; rewrite <- (inv_funs I t ty n f N).
  - unfold lookup. rewrite N. destruct (last_fun (ty_funs ty) n) as [s|]; simpl.
    + split; [intros (s' & E & F); inversion E; subst; reflexivity|].
      intro E. inversion E. eauto.
    + split; [intros (s' & E & F); discriminate|discriminate].
  - unfold member_call, lookup. rewrite N. destruct (last_fun (ty_funs ty) n) as [s|]; simpl; split;
      intro E; inversion E; reflexivity.
Qed.

(** A call site executed with any number of objects that all answer with the same method. *)
Theorem C91_call_site_partial : forall bs os gs tb k,
  NoDup bs -> program [] (table0 bs) 0 os gs tb k ->
  exists r, t_run (start bs) os = Some (r, map (fun _ => true) os) /\
    forall n f ts, (forall t, In t ts -> method_of tb t n f) ->
      call_site r n None ts = repeat (TFun f) (length ts).
Proof.
  intros bs os gs tb k ND P. destruct (run_refines _ _ _ _ _ _ _ _ P (start_inv bs ND)) as (r & R & I).
  exists r. split; [exact R|]. intros n f.
  assert (K : forall t, method_of tb t n f -> exists s, lookup r t n = Some s /\ s_fun s = f /\ s_name s = n).
  { intros t M. assert (exists c, nth_error tb t = Some c) as (c & Nc) by (destruct M; eauto).
    destruct (I_at _ _ _ _ I t c Nc) as (ty & N & _).
    apply (inv_funs I t ty n f N) in M. unfold lookup. rewrite N.
    destruct (last_fun (ty_funs ty) n) as [s|] eqn:L; [|discriminate].
    exists s. apply last_fun_in in L as [_ Es]. inversion M. auto. }
  assert (G : forall ts s, s_fun s = f -> s_name s = n ->
             call_site r n (Some s) ts = repeat (TFun f) (length ts)).
  { induction ts as [|t ts IH]; intros s Ef En; [reflexivity|]. simpl.
    rewrite En, name_eqb_refl. rewrite Ef. f_equal. apply IH; auto. }
  intros [|t ts] H; [reflexivity|].
  destruct (K t (H t (or_introl eq_refl))) as (s & L & Ef & En).
  simpl. rewrite L, Ef. f_equal. apply G; auto.
Qed.

(** The symbol found by the first object is used for all later ones, whatever their type: an
    object of another class runs the method of the first one, even if its class declares
    another or none. *)
Theorem C91_call_site_refuted : forall r n t1 s1 ts,
  lookup r t1 n = Some s1 ->
  call_site r n None (t1 :: ts) = TFun (s_fun s1) :: map (fun _ => TFun (s_fun s1)) ts.
Proof.
  intros r n t1 s1 ts L.
  assert (En : s_name s1 = n).
  { unfold lookup in L. destruct (nth_error (types r) t1); [|discriminate].
    apply last_fun_in in L as [_ E]. exact E. }
  simpl. rewrite L. f_equal.
  induction ts as [|t ts IH]; [reflexivity|]. simpl. rewrite En, name_eqb_refl. f_equal. exact IH.
Qed.

Lemma method_up tb t u n f :
  subclass tb t u -> method_of tb u n f -> exists g, method_of tb t n g.
Proof.
  intro S. revert f. induction S as [t u (c & N & E)|t|t m u S1 IH1 S2 IH2]; intros f M.
  - destruct (in_dec name_dec n (map fst (c_methods c))) as [I|NI].
    + apply in_map_iff in I as ([m g] & En & Im). simpl in En. subst m.
      exists g. eapply own_method; eauto.
    + exists f. eapply inherited_method; eauto.
  - eauto.
  - destruct (IH2 f M) as (g & Mg). exact (IH1 g Mg).
Qed.

(** `this.m()` in a method of class [a], run on an object of [a] or of a class extending it:
    runs the object's own nearest declaration. *)
Theorem C91_this_call_partial : forall bs os gs tb k,
  NoDup bs -> program [] (table0 bs) 0 os gs tb k ->
  exists r, t_run (start bs) os = Some (r, map (fun _ => true) os) /\
    forall a n f t, method_of tb a n f -> subclass tb t a ->
      exists g, method_of tb t n g /\ this_call r r a n t = TFun g.
Proof.
  intros bs os gs tb k ND P. destruct (run_refines _ _ _ _ _ _ _ _ P (start_inv bs ND)) as (r & R & I).
  exists r. split; [exact R|]. intros a n f t M S.
  destruct (method_up tb t a n f S M) as (g & Mg). exists g. split; [exact Mg|].
  assert (exists c, nth_error tb a = Some c) as (ca & Na) by (destruct M; eauto).
  assert (exists c, nth_error tb t = Some c) as (ct & Nt) by (destruct Mg; eauto).
  destruct (I_at _ _ _ _ I a ca Na) as (ya & Ya & _).
  destruct (I_at _ _ _ _ I t ct Nt) as (yt & Yt & _).
  unfold this_call, lookup. rewrite Ya, Yt.
  apply (inv_funs I a ya n f Ya) in M. apply (inv_funs I t yt n g Yt) in Mg.
  destruct (first_fun ya n) as [s|] eqn:F.
  - destruct (last_fun (ty_funs yt) n) as [s'|]; [|discriminate]. inversion Mg. reflexivity.
  - apply first_fun_none in F. rewrite F in M. discriminate.
Qed.

Lemma firstn_in {A} (l : list A) j x : In x (firstn j l) -> In x l.
Proof. intro H. rewrite <- (firstn_skipn j l). apply in_or_app. left. exact H. Qed.

Lemma nodup_firstn t ms j n f :
  NoDup (map fst ms) -> nth_error (own_syms t ms) j = Some (mksym n f t) ->
  last_fun (firstn j (own_syms t ms)) n = None.
Proof.
  intros ND N. apply last_fun_none. intros s Is Es.
  apply In_nth_error in Is as (i & Ni).
  assert (i < j)%nat.
  { apply nth_lt in Ni. rewrite firstn_length in Ni. lia. }
  assert (nth_error (own_syms t ms) i = Some s) as Ni'.
  { rewrite <- Ni. rewrite <- (firstn_skipn j (own_syms t ms)) at 1.
    apply nth_error_app1. exact (nth_lt _ _ _ Ni). }
  rewrite NoDup_nth_error in ND.
  assert (i = j); [|lia]. apply ND.
  - rewrite map_length. apply nth_lt in Ni'. unfold own_syms in Ni'. rewrite map_length in Ni'. exact Ni'.
  - unfold own_syms in N, Ni'. rewrite nth_error_map in N, Ni'.
    destruct (nth_error ms j) as [mj|] eqn:Ej; [|discriminate].
    destruct (nth_error ms i) as [mi|] eqn:Ei; [|discriminate].
    erewrite !map_nth_error; [|eassumption..]. inversion N; inversion Ni'; subst. simpl in *. congruence.
Qed.

(** `super()` in a method of class [t] runs the nearest declaration of the class it extends. *)
Theorem C91_super_call_partial : forall bs os gs tb k,
  NoDup bs -> program [] (table0 bs) 0 os gs tb k ->
  exists r, t_run (start bs) os = Some (r, map (fun _ => true) os) /\
    forall t c n f ty idx, nth_error tb t = Some c -> In (n, f) (c_methods c) ->
      nth_error (types r) t = Some ty -> nth_error (ty_funs ty) idx = Some (mksym n f t) ->
      forall g, (exists s, super_call r t idx = Some s /\ s_fun s = g) <->
                (exists p, c_parent c = Some p /\ method_of tb p n g).
Proof.
  intros bs os gs tb k ND P. destruct (run_refines _ _ _ _ _ _ _ _ P (start_inv bs ND)) as (r & R & I).
  exists r. split; [exact R|]. intros t c n f ty idx Nc Im Nt Nx g.
  destruct (inv_ty I t c ty Nc Nt) as (_ & _ & _ & Ef).
  unfold super_call. rewrite Nt, Nx. cbn [s_name]. rewrite Ef in *.
  assert (L : (length (base_funs r (c_parent c)) <= idx)%nat).
  { destruct (Nat.le_gt_cases (length (base_funs r (c_parent c))) idx) as [H|H]; [exact H|].
    exfalso. rewrite nth_error_app1 in Nx by exact H. apply nth_error_In in Nx.
    pose proof (inv_base_owners I t c _ Nc Nx) as O. simpl in O. lia. }
  rewrite nth_error_app2 in Nx by exact L.
  rewrite firstn_app, firstn_all2 by exact L. rewrite last_fun_app.
  rewrite (nodup_firstn t (c_methods c) _ n f (I_own _ _ _ _ I t c Nc) Nx).
  destruct (c_parent c) as [p|] eqn:Ep; simpl.
  - pose proof (I_par _ _ _ _ I t c p Nc Ep) as Lp.
    destruct (nth_error (types r) p) as [tp|] eqn:Np.
    + pose proof (inv_funs I p tp n g Np) as F. split.
      * intros (s & E & Eg). exists p. split; [reflexivity|]. apply F. rewrite E. simpl. congruence.
      * intros (p' & E & M). inversion E; subst p'. apply F in M.
        destruct (last_fun (ty_funs tp) n) as [s|]; [|discriminate]. inversion M. eauto.
    + exfalso. apply nth_error_None in Np. apply nth_lt in Nt. lia.
  - split; [intros (s & E & _); discriminate|intros (p & E & _); discriminate].
Qed.

(** A method added to a class after it was extended (`function A::m(){}`) is not inherited:
    objects of the earlier subclass do not have it, and `this.m()` in a method of A run on
    one of them dereferences a null pointer. *)
Theorem C91_late_method_refuted : forall r a b n r',
  a <> b -> lookup r b n = None -> t_step r (DFun a n) = Some (r', true) ->
  (exists s, lookup r' a n = Some s) /\ lookup r' b n = None /\
  this_call r' r' a n b = TNull.
Proof.
  intros r a b n r' Ne L H.
  assert (E : exists ty, nth_error (types r) a = Some ty /\
            r' = mkreg (upd (types r) a
                              (mktype (ty_name ty) (ty_bases ty) (ty_vars ty)
                                      (ty_funs ty ++ [mksym n (nfun r) a]) (ty_init ty)))
                            (globals r) (S (nfun r))).
  { unfold t_step, register_function in H. destruct (nth_error (types r) a) as [ty|]; [|discriminate].
    exists ty. split; [reflexivity|].
    destruct (mem n (ty_vars ty)); [discriminate|].
    destruct (last_fun (ty_funs ty) n) as [s|];
      [destruct (Nat.eqb (s_owner s) a); [discriminate|]|];
      match type of H with context [if ?c then _ else _] => destruct c end; inversion H; reflexivity. }
  destruct E as (ty & N & ->).
  assert (La : lookup (mkreg (upd (types r) a
                              (mktype (ty_name ty) (ty_bases ty) (ty_vars ty)
                                      (ty_funs ty ++ [mksym n (nfun r) a]) (ty_init ty)))
                            (globals r) (S (nfun r))) a n = Some (mksym n (nfun r) a)).
  { unfold lookup. simpl. rewrite nth_error_upd_eq by exact (nth_lt _ _ _ N).
    cbn [ty_funs]. rewrite last_fun_snoc. simpl. rewrite name_eqb_refl. reflexivity. }
  assert (Lb : lookup (mkreg (upd (types r) a
                              (mktype (ty_name ty) (ty_bases ty) (ty_vars ty)
                                      (ty_funs ty ++ [mksym n (nfun r) a]) (ty_init ty)))
                            (globals r) (S (nfun r))) b n = None).
  { unfold lookup in *. simpl. rewrite nth_error_upd_neq' by exact Ne. exact L. }
  split; [eauto|]. split; [exact Lb|].
  unfold this_call. rewrite Lb. simpl. rewrite nth_error_upd_eq by exact (nth_lt _ _ _ N).
  destruct (first_fun _ n) as [s|] eqn:F; [reflexivity|].
  apply first_fun_none in F. cbn [ty_funs] in F. rewrite last_fun_snoc in F. simpl in F.
  rewrite name_eqb_refl in F. discriminate.
Qed.

(** ** C92: declaring a member twice is an error that changes nothing *)

Theorem C92_declared_twice_partial : forall bs os gs tb k,
  NoDup bs -> program [] (table0 bs) 0 os gs tb k ->
  exists r, t_run (start bs) os = Some (r, map (fun _ => true) os) /\
    forall t c n, nth_error tb t = Some c ->
      (In n (map fst (c_methods c)) -> t_step r (DFun t n) = Some (r, false)) /\
      (has_var tb t n \/ (exists f, method_of tb t n f) -> t_step r (DVar t n) = Some (r, false)).
Proof.
  intros bs os gs tb k ND P. destruct (run_refines _ _ _ _ _ _ _ _ P (start_inv bs ND)) as (r & R & I).
  exists r. split; [exact R|]. intros t c n Nc.
  destruct (I_at _ _ _ _ I t c Nc) as (ty & Nt & _ & _ & _ & Ef). split.
  - intro H. apply in_map_iff in H as ([m f] & E & Im). simpl in E. subst m.
    unfold t_step, register_function. rewrite Nt.
    assert (mem n (ty_vars ty) = false) as ->.
    { apply mem_false. intro V. apply (inv_vars I t ty n Nt) in V.
      apply (I_apart _ _ _ _ I t n f V). eapply own_method; eauto. }
    rewrite Ef, last_fun_app.
    destruct (last_fun_own t (c_methods c) n (I_own _ _ _ _ I t c Nc)) as [O _].
    rewrite (O f Im). cbn [s_owner]. rewrite Nat.eqb_refl. reflexivity.
  - intro H. unfold t_step, register_variable. rewrite Nt.
    destruct (scope_has ty n) eqn:S; [reflexivity|]. apply scope_has_false in S as [V F].
    exfalso. destruct H as [H|(f & H)].
    + apply V. apply (inv_vars I t ty n Nt). exact H.
    + apply (inv_no_fun I t ty n Nt) with (f := f) in F. contradiction.
Qed.

(** A function with the name of a member variable (or constant, or property) of the class is
    not reported: the variable's symbol is used as a function, which is undefined. *)
Theorem C92_function_after_variable_refuted : forall r t ty n,
  nth_error (types r) t = Some ty -> In n (ty_vars ty) -> t_step r (DFun t n) = None.
Proof.
  intros r t ty n N I. unfold t_step, register_function. rewrite N.
  apply mem_spec in I. rewrite I. reflexivity.
Qed.

(** ** A concrete script

    class A { const K=..; function f(){} function g(){} }
    class B extends A { function f(){} }      class C extends B {}     class D {} *)

Definition nA : name := [65]%Z.  Definition nB : name := [66]%Z.  Definition nC : name := [67]%Z.
Definition nD : name := [68]%Z.  Definition nK : name := [75]%Z.
Definition nf : name := [102]%Z. Definition ng : name := [103]%Z.
Definition script : list top :=
  [DClass nA []; DVar 1 nK; DFun 1 nf; DFun 1 ng; DClass nB nA; DFun 2 nf; DClass nC nB; DClass nD []].
Definition script_table : table :=
  [mkcls [73]%Z None [] [];
   mkcls nA None [nK] [(nf, 1); (ng, 2)]; mkcls nB (Some 1%nat) [] [(nf, 4)];
   mkcls nC (Some 2%nat) [] []; mkcls nD None [] []].

Ltac nocl := let t := fresh in let c := fresh in let N := fresh in let E := fresh in
  intros (t & c & N & E);
  repeat (destruct t as [|t];
          [simpl in N; inversion N; subst c; simpl in E; discriminate
          |simpl in N; try discriminate N]).
Ltac nopar := let u := fresh in let c := fresh in let N := fresh in let E := fresh in
  intros u (c & N & E);
  repeat (destruct u as [|u];
          [simpl in N; inversion N; subst c; simpl in E; discriminate
          |simpl in N; try discriminate N]).

Ltac vinv H := match type of H with has_var ?tb ?t ?v =>
  let x := eval cbv in (nth_error tb t) in
  match x with Some ?c => apply (var_inv tb t c v (eq_refl : nth_error tb t = Some c)) in H end end.
Ltac minv H := match type of H with method_of ?tb ?t ?v ?f =>
  let x := eval cbv in (nth_error tb t) in
  match x with Some ?c => apply (method_inv tb t c v f (eq_refl : nth_error tb t = Some c)) in H end end.

Example C91_case : program [] (table0 [[73]%Z]) 0 script [] script_table 7.
Proof.
  unfold script.
  eapply prog_cons; [apply decl_class; [unfold MAX_CLASSES; simpl; lia|discriminate|nocl|intros []]|].
  eapply prog_cons; [eapply decl_var; [reflexivity|nopar|nocl| |]|].
  { intro H. vinv H; destruct H as [[]|(p & E & _)].
    discriminate. }
  { intros f H. minv H; destruct H as [[]|(_ & p & E & _)].
    discriminate. }
  eapply prog_cons; [eapply decl_fun; [reflexivity|nopar|left; nocl| |intros []]|].
  { intro H. vinv H; destruct H as [[E|[]]|(p & E & _)];
      discriminate. }
  eapply prog_cons; [eapply decl_fun; [reflexivity|nopar|left; nocl| |intros [E|[]]; discriminate]|].
  { intro H. vinv H; destruct H as [[E|[]]|(p & E & _)];
      discriminate. }
  eapply prog_cons; [eapply (decl_extends _ _ _ nB nA 1);
    [unfold MAX_CLASSES; simpl; lia|discriminate|discriminate|nocl|intros []| |]|].
  { eexists. split; reflexivity. }
  { intros v H. vinv H; destruct H as [[<-|[]]|(p & E & _)];
      [|discriminate]. split; [discriminate|nocl]. }
  eapply prog_cons; [eapply decl_fun; [reflexivity|nopar|left; nocl| |intros []]|].
  { intro H. vinv H; destruct H as [[]|(p & E & H)].
    simpl in E. inversion E; subst p.
    vinv H; destruct H as [[E2|[]]|(p & E2 & _)]; discriminate. }
  eapply prog_cons; [eapply (decl_extends _ _ _ nC nB 2);
    [unfold MAX_CLASSES; simpl; lia|discriminate|discriminate|nocl|intros []| |]|].
  { eexists. split; reflexivity. }
  { intros v H. vinv H; destruct H as [[]|(p & E & H)].
    simpl in E. inversion E; subst p.
    vinv H; destruct H as [[<-|[]]|(p & E2 & _)];
      [|discriminate]. split; [discriminate|nocl]. }
  eapply prog_cons; [apply decl_class; [unfold MAX_CLASSES; simpl; lia|discriminate|nocl|intros []]|].
  apply prog_nil.
Qed.

(** What the model makes of it: instanceof, calls on objects of C, `super` in B.f, and one
    call site used with an object of C and then of A. *)
Definition after (r : registry) (os : list top) : registry :=
  match t_run r os with Some (r', _) => r' | None => r end.
Definition script_reg : registry := after (start [[73]%Z]) script.

Example C58_case :
  t_run (start [[73]%Z]) script = Some (script_reg, map (fun _ => true) script) /\
  instanceof 5 script_reg 3 (Some 1) = Ok true /\ instanceof 5 script_reg 1 (Some 3) = Ok false /\
  instanceof 5 script_reg 4 (Some 1) = Ok false /\
  snd (member_call script_reg nf None 3) = TFun 4 /\
  snd (member_call script_reg ng None 3) = TFun 2 /\
  snd (member_call script_reg ng None 4) = TField /\
  this_call script_reg script_reg 1 nf 3 = TFun 4 /\
  option_map s_fun (super_call script_reg 2 2) = Some 1 /\
  call_site script_reg nf None [3; 1] = [TFun 4; TFun 4].
Proof. vm_compute. repeat split. Qed.

(** Failures: E extends an unknown class, then is declared rightly; `class E extends E`; a
    function named as a constant; a method added too late; a class named as a constant it
    would inherit. *)
Example C59_case :
  let r := script_reg in
  let r1 := after r [DClass [69]%Z [90]%Z] in
  let r2 := after r [DClass [69]%Z [69]%Z] in
  let r3 := after r [DFun 1 [104]%Z] in
  let r4 := after r [DClass nK nA] in
  t_step r (DClass [69]%Z [90]%Z) = Some (r1, false) /\
  t_step r1 (DClass [69]%Z nA) = Some (r1, false) /\ length (types r1) = 6 /\
  t_step r (DClass [69]%Z [69]%Z) = Some (r2, true) /\ inherits 50 r2 5 1 = Loop /\
  t_step r (DFun 2 nK) = None /\
  t_step r (DFun 1 [104]%Z) = Some (r3, true) /\ this_call r3 r3 1 [104]%Z 3 = TNull /\
  t_step r (DClass nK nA) = Some (r4, false).
Proof. vm_compute. repeat split. Qed.

Print Assumptions C58_instanceof_partial.
Print Assumptions C58_base_is_declared.
Print Assumptions C58_subclass.
Print Assumptions C58_new_object_partial.
Print Assumptions C58_self_extension_refuted.
Print Assumptions C59_failure_unchanged_partial.
Print Assumptions C59_extends_failure_refuted.
Print Assumptions C59_unknown_base_refuted.
Print Assumptions C59_inherited_name_refuted.
Print Assumptions C91_nearest_declaration_partial.
Print Assumptions C91_call_site_partial.
Print Assumptions C91_call_site_refuted.
Print Assumptions C91_this_call_partial.
Print Assumptions C91_super_call_partial.
Print Assumptions C91_late_method_refuted.
Print Assumptions C92_declared_twice_partial.
Print Assumptions C92_function_after_variable_refuted.
