(** Theorems about scopes: C60 (what a name refers to), C61 (renumbering of local variables),
    C93 (names after their block), C94 (symbols of instructions), C95 (functions without code), C96 (scripts that fail). *)
From Coq Require Import ZArith List Bool Lia PeanoNat.
From Verif Require Import ScopeModel ScopeSpec ScopeProofs ScopeStepProofs ScopeSessionProofs ScopeFactProofs.
Import ListNotations.
Open Scope nat_scope.

(** Scripts are compiled one after the other from a new engine; [defined] says that no
    compilation accessed memory outside its tables. *)
Definition after (ty : name -> bool) (ls : list (list op)) : engine := fst (session ty ls fresh).
Definition results (ty : name -> bool) (ls : list (list op)) : list cres := snd (session ty ls fresh).
Definition meant (ty : name -> bool) (ls : list (list op)) : world := fst (spec_session ty ls first_world).
Definition defined (ty : name -> bool) (ls : list (list op)) : Prop := ~ In CUndef (results ty ls).

Lemma session_RE : forall ty ls, defined ty ls -> RE (after ty ls) (meant ty ls).
Proof.
  intros ty ls N. destruct (session_refines ty ls fresh first_world RE_fresh) as [S _].
  apply (S N).
Qed.

Lemma run_cons : forall ty o l s s', step ty o s = (s', Go) -> run ty (o :: l) s = run ty l s'.
Proof. intros ty o l s s' H. cbn [run]. rewrite H. reflexivity. Qed.
Lemma run_fail : forall ty o l s s', step ty o s = (s', Fail) -> run ty (o :: l) s = (s', Fail).
Proof. intros ty o l s s' H. cbn [run]. rewrite H. reflexivity. Qed.
Lemma compile_run : forall ty l e s st t r, run ty l (begin e) = (s, st) -> st <> Undef -> c_stack s = t :: r ->
  compile ty l e =
  match finalize (last (c_fs s) (mkfs 0 false [] [])) (prune (collapse t r)) with
  | POk fn m' =>
    (mkeng m' (fn_locals fn) (fn_code fn) (c_next s) (c_nfun s) (c_funs s) (map prune (c_orphans s)),
     match st, r with Go, [] => CDone | _, _ => CError end)
  | PErr => (e, CError)
  | PUndef => (e, CUndef)
  end.
Proof.
  intros ty l e s st t r H N E. unfold compile. rewrite H, E. destruct st; try reflexivity. congruence.
Qed.

(** Running the model on a script with unknown names, one step at a time; [rw] rewrites with
    what is known of the names. *)
Ltac one rw := lazy -[Z.eqb]; rw; lazy -[Z.eqb]; try rw; lazy -[Z.eqb]; try rw; lazy -[Z.eqb]; reflexivity.
Ltac walk rw :=
  match goal with
  | |- run _ [] _ = _ => reflexivity
  | |- run _ (_ :: _) _ = _ =>
    first [ eapply eq_trans; [eapply run_cons; one rw|]; walk rw
          | eapply run_fail; one rw ]
  end.
Lemma session_cons : forall ty l ls e e' c e'' cs,
  compile ty l e = (e', c) -> session ty ls e' = (e'', cs) -> session ty (l :: ls) e = (e'', c :: cs).
Proof. intros ty l ls e e' c e'' cs H1 H2. cbn [session]. rewrite H1, H2. reflexivity. Qed.
Ltac script rw := eapply eq_trans;
  [ eapply compile_run; [walk rw|discriminate|reflexivity]
  | lazy; reflexivity ].
Ltac scripts rw :=
  match goal with
  | |- session _ [] _ = _ => reflexivity
  | |- session _ (_ :: _) _ = _ => eapply session_cons; [script rw|scripts rw]
  end.
Ltac sess rw :=
  unfold results, after;
  repeat match goal with
  | |- context [session ?ty ?ls ScopeModel.fresh] =>
    let S := fresh "S" in let r := fresh "r" in
    evar (r : (engine * list cres)%type);
    assert (S : session ty ls ScopeModel.fresh = r) by (unfold r; scripts rw);
    rewrite S; clear S; subst r; cbn [fst snd]
  end.

(* ------------------------------------------------------------------ *)
(** ** C60: names *)

(** A name stands for the nearest open block of the function that declares it. *)
Theorem C60_visible_is_nearest : forall ds x bs i,
  visible ds x bs = Some i <->
  exists inner b outer, bs = inner ++ b :: outer /\
    (forall c j, In c inner -> In j c -> named ds x j = false) /\ find (named ds x) b = Some i.
Proof.
  intros ds x bs i. induction bs as [|b bs IH]; cbn [visible].
  - split; [discriminate|]. intros (a & b & c & E & _). destruct a; discriminate.
  - destruct (find (named ds x) b) as [j|] eqn:F.
    + split.
      * intros H. inversion H; subst. exists [], b, bs. repeat split; auto. intros c k [].
      * intros (a & b' & c & E & N & F'). destruct a as [|a0 a]; simpl in E; inversion E; subst; [congruence|].
        apply find_some in F. destruct F as [I F]. rewrite (N a0 j) in F; [discriminate|left; reflexivity|exact I].
    + rewrite IH. split.
      * intros (a & b' & c & -> & N & F'). exists (b :: a), b', c. repeat split; auto.
        intros d j [<-|Hd] Hj; [|eapply N; eauto]. exact (find_none _ _ F j Hj).
      * intros (a & b' & c & E & N & F'). destruct a as [|a0 a]; simpl in E; inversion E; subst; [congruence|].
        exists a, b', c. repeat split; auto. intros d j Hd Hj. apply (N d j); [right; exact Hd|exact Hj].
Qed.

(** At every point of every script, whatever was compiled before, a name compiles to a load of
    the slot of the variable it stands for, or of the function it stands for; it is rejected
    exactly when it stands for nothing. *)
Theorem C60_use_is_nearest_declaration : forall ty ls l s x f fs,
  defined ty ls -> run ty l (begin (after ty ls)) = (s, Go) -> c_fs s = f :: fs ->
  let z := fst (spec_run ty l (spec_begin (meant ty ls))) in
  match load_sym ty x s, meaning ty x z with
  | Some i, Some v => Forall2 (agrees (fs_locals f)) (acc1 i) [v]
  | None, None => True
  | _, _ => False
  end.
Proof.
  intros ty ls l s x f fs N E F z. pose proof (session_RE ty ls N) as H.
  pose proof (run_refines ty l _ _ (begin_R _ _ H)) as Q. rewrite E in Q. destruct Q as [_ Q].
  pose proof (load_ok ty s _ x f fs Q F) as L. fold z in L.
  destruct (load_sym ty x s), (meaning ty x z); try exact L. apply L.
Qed.

(** The scripts of a session are accepted and rejected exactly as the environments say, and the
    compiler stays within its tables when the forms of C61 do not occur. *)
Theorem C60_scripts_accepted_iff : forall ty ls,
  (defined ty ls -> results ty ls = map verdict (snd (spec_session ty ls first_world))) /\
  (w_plain (meant ty ls) = true -> defined ty ls).
Proof.
  intros ty ls. destruct (session_refines ty ls fresh first_world RE_fresh) as [A B]. split.
  - intros N. apply (A N).
  - exact B.
Qed.

(** A variable whose name is visible in the function is rejected, and nothing changes. *)
Theorem C60_redeclaration_rejected : forall ty s x i,
  reachable ty s -> load_sym ty x s = Some i -> (forall y, i <> FindVariable y) ->
  step ty (OVar x) s = (s, Fail) /\ step ty (OConst x) s = (s, Fail).
Proof.
  intros ty s x i Hr L N. destruct (reachable_R ty s Hr) as (z & HR).
  assert (Q : register_var ty x s = (s, false)).
  { unfold register_var. unfold load_sym in L. destruct (ty x); [reflexivity|].
    pose proof (up_down_R s z x None HR (or_introl eq_refl)) as U. pose proof (down_R s z x HR) as D.
    destruct (z_env z) as [|e es]; [contradiction|].
    destruct (down x None (c_stack s)) as [y|].
    - destruct (up_down x None (c_stack s)) as [y'|]; [reflexivity|]. exfalso.
      destruct U as [U _]. specialize (U eq_refl). unfold clash in U. destruct D as [D _]. rewrite D in U. discriminate.
    - exfalso. destruct (c_fs s) as [|f [|g q]]; try discriminate. inversion L. eapply N. eauto. }
  cbn [step]. rewrite Q. split; reflexivity.
Qed.

(** A function, however, may be declared again in its block: the second one is accepted. *)
Theorem C60_second_function_refuted : forall ty f ps ps',
  ty f = false -> NoDup ps -> NoDup ps' ->
  (forall p, In p (ps ++ ps') -> ty p = false) ->
  results ty [[OFun f ps; OEnd; OFun f ps'; OEnd]] = [CDone].
Proof.
  intros ty f ps ps' Hf N1 N2 Ht.
  destruct (C60_scripts_accepted_iff ty [[OFun f ps; OEnd; OFun f ps'; OEnd]]) as [A B].
  assert (ARG : forall qs z e es b, z_env z = e :: es -> n_blocks e = [b] -> NoDup qs ->
     (forall p, In p qs -> ty p = false) ->
     (forall i, In i b -> i < length (z_decls z)) ->
     (forall p i, In p qs -> In i b -> named (z_decls z) p i = false) ->
     exists z' e' b', spec_args ty qs z = (z', true) /\ z_env z' = e' :: es /\ n_blocks e' = [b'] /\
       n_no e' = n_no e /\ (exists m, z_decls z' = z_decls z ++ m) /\
       z_nfun z' = z_nfun z /\ z_plain z' = z_plain z /\ z_keep z' = z_keep z).
  { induction qs as [|p qs IH]; intros z e es b Ez Eb ND T L Hn.
    - exists z, e, b. repeat split; auto. exists []. symmetry. apply app_nil_r.
    - cbn [spec_args]. rewrite Ez, Eb. cbn [hd]. rewrite (T p) by (left; reflexivity).
      assert (X : existsb (named (z_decls z) p) b = false).
      { apply not_true_is_false. intros X. apply existsb_exists in X. destruct X as (i & Hi & X).
        rewrite (Hn p i) in X; [discriminate|left; reflexivity|exact Hi]. }
      rewrite X. cbn [orb]. inversion ND; subst.
      destruct (IH (put_var p z)
         (mkse (n_no e) (n_base e) [b ++ [length (z_decls z)]] (n_seen e ++ [length (z_decls z)])
               (n_vars e ++ [length (z_decls z)]) (n_this e) (n_acc e)) es (b ++ [length (z_decls z)]))
        as (z' & e' & b' & Q1 & Q2 & Q3 & Q4 & (m & Q5') & Q6 & Q7 & Q8); auto.
      + unfold put_var. rewrite Ez, Eb. reflexivity.
      + intros q Hq. apply T. right. exact Hq.
      + unfold put_var. rewrite Ez. cbn [z_decls]. rewrite app_length. simpl. intros i Hi.
        apply in_app_or in Hi. destruct Hi as [Hi|[<-|[]]]; [|lia]. apply L in Hi. lia.
      + unfold put_var. rewrite Ez. cbn [z_decls]. intros q i Hq Hi. apply in_app_or in Hi.
        destruct Hi as [Hi|[<-|[]]].
        * unfold named. rewrite nth_error_app1 by (apply L; exact Hi). apply (Hn q i); [right; exact Hq|exact Hi].
        * unfold named. rewrite nth_error_app2, Nat.sub_diag by lia. cbn [nth_error d_name].
          apply Z.eqb_neq. intros ->. contradiction.
      + exists z', e', b'. unfold put_var in Q5', Q6, Q7, Q8. rewrite Ez in Q5', Q6, Q7, Q8.
        cbn [z_decls z_nfun z_plain z_keep n_no] in *. repeat split; auto.
        exists (mkd p None :: m). rewrite Q5', <- app_assoc. reflexivity. }
  assert (FUN : forall qs l z e z' q e', z_env z = [e] -> depth e < 10 -> NoDup qs ->
     (forall p, In p qs -> ty p = false) ->
     spec_fun ty f (length qs) z = (z', Some q) -> z_env z' = [e'] ->
     exists z2, spec_run ty (OFun f qs :: OEnd :: l) z = spec_run ty l z2 /\ z_env z2 = [e'] /\       (exists m, z_decls z2 = z_decls z' ++ m) /\ z_plain z2 = z_plain z').
  { intros qs l z e z' q e' Ez Dp ND T F E'. cbn [spec_run]. unfold spec_step at 1. rewrite Ez, F.
    unfold spec_enter.
    destruct (ARG qs (set_env (mkse q (depth e) [[]] [] [] (n_this e) [] :: z_env z') z')
                (mkse q (depth e) [[]] [] [] (n_this e) []) (z_env z') [] eq_refl eq_refl ND T)
      as (z2 & e2 & b2 & Q1 & Q2 & Q3 & Q4 & (m & Q5) & Q6 & Q7 & Q8).
    { intros i []. } { intros p i _ []. }
    rewrite Q1. apply Nat.ltb_lt in Dp. rewrite Dp. unfold spec_step. rewrite Q2, Q3, E'. cbv beta iota.
    eexists. split; [reflexivity|]. cbn [z_env z_decls z_plain]. split; [reflexivity|].
    split; [exists m; exact Q5|exact Q7]. }
  assert (W : exists w, spec_compile ty [OFun f ps; OEnd; OFun f ps'; OEnd] first_world = (w, true) /\ w_plain w = true).
  { unfold spec_compile.
    assert (F1 : exists z1 e1, spec_fun ty f (length ps) (spec_begin first_world) = (z1, Some 1) /\       z_env z1 = [e1] /\ n_blocks e1 = [[0]] /\ n_base e1 = 0 /\       z_decls z1 = [mkd f (Some (length ps, 1))] /\ z_plain z1 = true).
    { unfold spec_fun. cbn. rewrite Hf. cbn. eexists. eexists. repeat split. }
    destruct F1 as (z1 & e1 & F1 & E1 & B1 & D1 & S1 & P1).
    destruct (FUN ps [OFun f ps'; OEnd] (spec_begin first_world) _ z1 1 e1 eq_refl) as (z2 & Q1 & Q2 & (m & Q3) & Q4); auto.
    { cbn. lia. } { intros p Hp. apply Ht. apply in_or_app. auto. }
    rewrite Q1. rewrite S1 in Q3. cbn [app] in Q3.
    assert (F2 : exists z3, spec_fun ty f (length ps') z2 = (z3, Some 1) /\ z_env z3 = [e1] /\ z_plain z3 = true).
    { unfold spec_fun. rewrite Q2, B1, Q3. cbn. unfold named. cbn. rewrite Z.eqb_refl. cbn.
      eexists. split; [reflexivity|]. cbn. split; [first [exact Q2|reflexivity]|congruence]. }
    destruct F2 as (z3 & F2 & E3 & P3).
    destruct (FUN ps' [] z2 e1 z3 1 e1 Q2) as (z4 & R1 & R2 & _ & R4); auto.
    { unfold depth. rewrite B1, D1. cbn. lia. } { intros p Hp. apply Ht. apply in_or_app. auto. }
    rewrite R1. cbn [spec_run]. rewrite R2. cbn [last]. rewrite B1. eexists. split; [reflexivity|].
    cbn [w_plain]. congruence. }
  destruct W as (w & W1 & W2).
  assert (S : spec_session ty [[OFun f ps; OEnd; OFun f ps'; OEnd]] first_world = (w, [true])).
  { cbn [spec_session]. rewrite W1. reflexivity. }
  rewrite A, S; [reflexivity|]. apply B. unfold meant. rewrite S. exact W2.
Qed.

(** A script with nested blocks and a function: uses of the same name in different places. *)
Definition no_types : name -> bool := fun _ => false.
Example C60_case :
  let l := [OVar 1%Z; OOpen; OVar 2%Z; OUse 1%Z; OUse 2%Z; OClose false;
            OFun 3%Z [1%Z]; OUse 1%Z; OUse 2%Z; OOpen; OVar 2%Z; OUse 2%Z; OClose true; OEnd;
            OUse 3%Z] in
  results no_types [l] = [CDone] /\
  e_code (after no_types [l]) = [LoadLocal 0; LoadLocal 1; LoadFunction 2] /\
  map (fun p => option_map fn_code (snd p)) (e_funs (after no_types [l])) =
    [Some [LoadLocal 0; FindVariable 2%Z; LoadLocal 1]] /\
  w_plain (meant no_types [l]) = true /\
  results no_types [l; [OVar 1%Z]] = [CDone; CError] /\
  results no_types [l; [OUse 2%Z]] = [CDone; CError].
Proof. vm_compute. repeat split. Qed.

(* ------------------------------------------------------------------ *)
(** ** C61: renumbering *)

(** In a session without a mixed operator and without constants of the main scope, every
    compiled function with at most 256 variables gives each variable its own slot, its
    parameters the first ones in order, and every instruction touches the variable meant. *)
Theorem C61_renumbering_partial : forall ty ls,
  w_plain (meant ty ls) = true ->
  Forall2 (fun p q => fst p = fst q /\
     match snd p, snd q with
     | Some fn, Some o => length (o_vars o) <= 256 -> faithful fn o
     | None, None => True
     | _, _ => False
     end) (e_funs (after ty ls)) (w_done (meant ty ls)) /\
  (length (o_vars (w_main (meant ty ls))) <= 256 ->
   faithful (mkfunc (e_locals (after ty ls)) (e_code (after ty ls))) (w_main (meant ty ls))).
Proof.
  intros ty ls P. destruct (C60_scripts_accepted_iff ty ls) as [_ B].
  pose proof (session_RE ty ls (B P)) as H. split.
  - pose proof (E_done _ _ H) as D. eapply Forall2_impl; [|exact D]. intros [i v] [j o] [Q1 Q2].
    split; [exact Q1|]. cbn [fst snd] in *. destruct v, o; auto.
  - apply (E_main _ _ H P).
Qed.

(** Whatever is compiled, the variables of a function that ends get the slots 0, 1, 2... and
    the slots that are cleared at the end of each of its blocks are those of the variables of
    the block. *)
Theorem C61_function_slots : forall ty s s',
  reachable ty s -> step ty OEnd s = (s', Go) ->
  exists f fn t p r g,
    c_fs s = f :: g /\ c_stack s' = add_kids [t] p :: r /\ In (fs_fid f, Some fn) (c_funs s') /\
    fn_locals fn = map y_id (preorder t) /\
    (forall y, In y (preorder t) -> nth_error (fn_locals fn) (slot y) = Some (y_id y)) /\
    forall b, In b (blocks t) -> pop_slots b = map slot (sc_vars b).
Proof.
  intros ty s s' Hr E. destruct (function_placed ty s s' Hr E) as (f & fn & t & p & r & g & c & A & B & C & _ & D).
  exists f, fn, t, p, r, g. repeat split; try assumption; apply D.
Qed.

(** The same for the main function, whose slots are the global variables. *)
Theorem C61_global_slots : forall ty ls,
  defined ty ls ->
  let e := after ty ls in
  e_locals e = map y_id (preorder (e_main e)) /\
  (forall y, In y (preorder (e_main e)) -> nth_error (e_locals e) (slot y) = Some (y_id y)) /\
  forall b, In b (blocks (e_main e)) -> pop_slots b = map slot (sc_vars b).
Proof.
  intros ty ls N e. pose proof (session_RE ty ls N) as H. fold e in H.
  apply placed_intro; [apply (E_locals _ _ H)|apply (E_slots _ _ H)].
Qed.

(** A global variable keeps its slot: compiling another script, accepted or not, only adds
    variables after the ones that exist. *)
Theorem C61_globals_keep_their_slot : forall ty ls l,
  defined ty (ls ++ [l]) ->
  exists rest, map global (sc_vars (e_main (after ty (ls ++ [l])))) =
               map global (sc_vars (e_main (after ty ls))) ++ rest.
Proof.
  intros ty ls l N.
  assert (S : forall ls e, session ty (ls ++ [l]) e =
     (fst (compile ty l (fst (session ty ls e))),
      snd (session ty ls e) ++ [snd (compile ty l (fst (session ty ls e)))])).
  { clear. induction ls as [|l0 ls IH]; intros e; cbn [app session].
    - cbn [fst snd app]. destruct (compile ty l e). reflexivity.
    - destruct (compile ty l0 e) as [e' c]. rewrite IH. destruct (session ty ls e'). reflexivity. }
  assert (ND : defined ty ls).
  { intros Q. apply N. unfold results. rewrite S. apply in_or_app. left. exact Q. }
  unfold after at 1. rewrite S. cbn [fst]. eapply globals_stay; [apply session_RE; exact ND|].
  intros Q. apply N. unfold results. rewrite S. apply in_or_app. right. left. exact Q.
Qed.

(** A name that a function did not find is linked to the declaration of the main scope. *)
Theorem C61_link : forall ty ls x,
  defined ty ls ->
  match link ty x (after ty ls) with
  | Some (LGlobal n) => exists d, nth_error (e_locals (after ty ls)) n = Some d /\
      is_var (w_decls (meant ty ls)) d = true /\
      In d (w_top (meant ty ls)) /\ named (w_decls (meant ty ls)) x d = true
  | Some (LFunction d) => is_fn (w_decls (meant ty ls)) d = true /\
      In d (w_top (meant ty ls)) /\ named (w_decls (meant ty ls)) x d = true
  | Some LType => ty x = true
  | None => ty x = false /\ forall d, In d (w_top (meant ty ls)) -> named (w_decls (meant ty ls)) x d = false
  end.
Proof.
  intros ty ls x N. pose proof (session_RE ty ls N) as H. unfold link.
  destruct (ty x) eqn:T; [reflexivity|]. pose proof (E_top _ _ H) as HT. cbn [down].
  assert (SY : forall y, In y (sc_vars (e_main (after ty ls)) ++ sc_funs (e_main (after ty ls))) ->
     Rsym (w_decls (meant ty ls)) y).
  { intros y Hy. pose proof (t_syms _ _ _ _ HT) as S. rewrite Forall_forall in S. auto. }
  assert (IV : forall y, In y (sc_vars (e_main (after ty ls))) -> In (y_id y) (w_top (meant ty ls)) /\ is_var (w_decls (meant ty ls)) (y_id y) = true).
  { intros y Hy. apply (in_map y_id) in Hy. rewrite (t_vars _ _ _ _ HT) in Hy. apply filter_In in Hy. exact Hy. }
  assert (IF : forall y, In y (sc_funs (e_main (after ty ls))) -> In (y_id y) (w_top (meant ty ls)) /\ is_fn (w_decls (meant ty ls)) (y_id y) = true).
  { intros y Hy. apply (in_map y_id) in Hy. rewrite (t_funs _ _ _ _ HT) in Hy. apply filter_In in Hy. exact Hy. }
  assert (KV : forall y, is_var (w_decls (meant ty ls)) (y_id y) = true -> Rsym (w_decls (meant ty ls)) y -> exists n, y_kind y = KVar n).
  { intros y V Q. unfold is_var in V. rewrite Q in V. unfold decl_of in V. destruct (y_kind y); [eauto|discriminate]. }
  assert (KF : forall y, is_fn (w_decls (meant ty ls)) (y_id y) = true -> Rsym (w_decls (meant ty ls)) y -> exists p q, y_kind y = KFun p q).
  { intros y V Q. unfold is_fn in V. rewrite Q in V. unfold decl_of in V. destruct (y_kind y); [discriminate|eauto]. }
  unfold here. destruct (find _ (sc_vars (e_main (after ty ls)))) as [y|] eqn:F.
  - apply find_some in F. destruct F as [I E]. apply Z.eqb_eq in E.
    assert (Q : Rsym (w_decls (meant ty ls)) y) by (apply SY; apply in_or_app; auto).
    destruct (IV y I) as [I1 I2]. destruct (KV y I2 Q) as (n & K). rewrite K.
    exists (y_id y). repeat split; auto.
    + destruct (C61_global_slots ty ls N) as (_ & G & _). specialize (G y).
      unfold slot in G. rewrite K in G. apply G.
      destruct (e_main (after ty ls)) as [k f u v g c]. rewrite preorder_eq. apply in_or_app. left. exact I.
    + apply name_of; assumption.
  - destruct (find (fun_match x None) (sc_funs (e_main (after ty ls)))) as [y|] eqn:G.
    + apply find_some in G. destruct G as [I E]. unfold fun_match in E. rewrite andb_true_r in E. apply Z.eqb_eq in E.
      assert (Q : Rsym (w_decls (meant ty ls)) y) by (apply SY; apply in_or_app; auto).
      destruct (IF y I) as [I1 I2]. destruct (KF y I2 Q) as (p & q & K). rewrite K.
      repeat split; auto. apply name_of; assumption.
    + split; [reflexivity|]. intros d Hd. apply not_true_is_false. intros Nd.
      assert (R1 : In d (map y_id (sc_vars (e_main (after ty ls)))) \/ In d (map y_id (sc_funs (e_main (after ty ls))))).
      { rewrite (t_vars _ _ _ _ HT), (t_funs _ _ _ _ HT), !filter_In.
        unfold named in Nd. unfold is_var, is_fn. destruct (nth_error (w_decls (meant ty ls)) d) as [[n [p|]]|]; auto; try discriminate. }
      destruct R1 as [R1|R1]; apply in_map_iff in R1; destruct R1 as (y & <- & Hy).
      * apply (find_none _ _ F) in Hy as E. apply (name_of _ y) in Nd; [|apply SY; apply in_or_app; auto].
        rewrite Nd, Z.eqb_refl in E. discriminate.
      * apply (find_none _ _ G) in Hy as E. apply (name_of _ y) in Nd; [|apply SY; apply in_or_app; auto].
        unfold fun_match in E. rewrite Nd, Z.eqb_refl in E. discriminate.
Qed.

(** Two blocks before a variable of the outermost block: the variables move, and the code with them. *)
Definition moved : list op :=
  [OFun 9%Z [1%Z]; OOpen; OVar 2%Z; OBin (RVar 1%Z) (RVar 2%Z); OClose false;
   OOpen; OVar 3%Z; OUse 3%Z; OClose false; OVar 4%Z; OConst 5%Z; OUse 4%Z; OEnd].
Example C61_case :
  results no_types [moved] = [CDone] /\
  map (fun p => option_map (fun f => (fn_locals f, fn_code f)) (snd p)) (e_funs (after no_types [moved])) =
    [Some ([1; 4; 5; 2; 3], [OpRR (AL 0) (AL 3); LoadLocal 4; StoreLocal 2; LoadLocal 1])] /\
  w_plain (meant no_types [moved]) = true.
Proof. vm_compute. repeat split. Qed.

(** False in general, 1: a constant of the main scope after a block with a variable.  The
    constant is stored in the slot of the block variable; a use of it reads another one. *)
Theorem C61_main_constant_refuted : forall ty t k,
  ty t = false -> ty k = false -> t <> k ->
  results ty [[OOpen; OVar t; OClose false; OConst k; OUse k]] = [CDone] /\
  e_code (after ty [[OOpen; OVar t; OClose false; OConst k; OUse k]]) = [StoreGlobal 1; LoadLocal 0] /\
  e_locals (after ty [[OOpen; OVar t; OClose false; OConst k; OUse k]]) = [1; 0].
Proof.
  intros ty t k Ht Hk Hne. assert (E : Z.eqb t k = false) by (apply Z.eqb_neq; exact Hne).
  assert (E' : Z.eqb k t = false) by (apply Z.eqb_neq; auto).
  sess ltac:(rewrite ?Ht, ?Hk, ?E, ?E', ?Z.eqb_refl). repeat split.
Qed.

(** False in general, 2: an operator on a member of [this] and a variable that moves.  The
    variable is read from its old slot. *)
Definition mixed_script : list op :=
  [OMethod [1%Z]; OOpen; OVar 2%Z; OClose false; OVar 3%Z; OBin (RThis 0) (RVar 3%Z); OEnd].
Theorem C61_mixed_operator_refuted :
  results no_types [mixed_script] = [CDone] /\
  e_funs (after no_types [mixed_script]) =
    [(1, Some (mkfunc [0; 2; 1] [OpRR (AT 0) (AL 2)]))] /\
  w_done (meant no_types [mixed_script]) =
    [(1, Some (mksf [0; 2] [0; 1; 2] [VThis 0; VRead 2]))].
Proof. vm_compute. repeat split. Qed.

(** With the operands the other way round the member is renumbered as if it was a variable;
    a member whose position is not that of a variable reads outside the table. *)
Theorem C61_member_renumbered_refuted : forall k, 3 <= k -> k < 128 ->
  results no_types [[OMethod [1%Z]; OOpen; OVar 2%Z; OClose false; OVar 3%Z;
                     OBin (RVar 3%Z) (RThis k); OEnd]] = [CUndef].
Proof.
  intros k H1 H2. assert (L : Nat.ltb k MAX_REG = true) by (apply Nat.ltb_lt; exact H2).
  assert (Lk : look [Some 0; Some 2; Some 1] k = None).
  { unfold look. destruct k as [|[|[|k]]]; try lia. cbn. destruct k; reflexivity. }
  assert (B : bin_code (LoadLocal 2) (LoadThis k) = [OpRR (AL 2) (AT k)]).
  { unfold bin_code, as_register. rewrite L. reflexivity. }
  assert (U : exists s, run no_types [OMethod [1%Z]; OOpen; OVar 2%Z; OClose false; OVar 3%Z;
                     OBin (RVar 3%Z) (RThis k); OEnd] (begin fresh) = (s, Undef)).
  { eexists. do 5 (eapply eq_trans; [eapply run_cons; lazy; reflexivity|]).
    eapply eq_trans.
    { eapply run_cons. cbn [step load_rand c_fs fs_this].
      match goal with |- context [load_sym ?t ?x ?s] =>
        replace (load_sym t x s) with (Some (LoadLocal 2)) by (lazy; reflexivity) end.
      rewrite B. lazy. reflexivity. }
    cbn [run]. match goal with |- context [step ?t OEnd ?s] =>
      assert (V : step t OEnd s = (s, Undef)) by (lazy -[look]; rewrite Lk; reflexivity) end.
    rewrite V. reflexivity. }
  destruct U as (s & U). unfold results. cbn [session]. unfold compile. rewrite U. reflexivity.
Qed.
Theorem C61_member_changed_refuted :
  results no_types [[OMethod [1%Z]; OOpen; OVar 2%Z; OClose false; OVar 3%Z;
                     OBin (RVar 3%Z) (RThis 2); OEnd]] = [CDone] /\
  e_funs (after no_types [[OMethod [1%Z]; OOpen; OVar 2%Z; OClose false; OVar 3%Z;
                           OBin (RVar 3%Z) (RThis 2); OEnd]]) =
    [(1, Some (mkfunc [0; 2; 1] [OpRR (AL 1) (AT 1)]))].
Proof. vm_compute. repeat split. Qed.

(** False in general, 3: with more than 256 variables the operand of an operator is cut to
    eight bits: [t + t] reads the first variable. *)
Definition many : list op :=
  [OOpen; OVar 0%Z; OBin (RVar 0%Z) (RVar 0%Z); OClose false] ++
  map (fun i => OVar (Z.of_nat i)) (seq 1 256).
Theorem C61_many_variables_refuted :
  results no_types [many] = [CDone] /\
  e_code (after no_types [many]) = [OpRR (AL 0) (AL 0)] /\
  nth_error (e_locals (after no_types [many])) 0 = Some 1 /\
  o_acc (w_main (meant no_types [many])) = [VRead 0; VRead 0].
Proof. vm_compute. repeat split. Qed.

(* ------------------------------------------------------------------ *)
(** ** C93: a name is free after its block *)

(** Inside a block (not the outermost one of the function) every name that is not visible in
    the function can be declared, whatever the blocks that ended declared. *)
Theorem C93_nested_partial : forall ty s x b p r,
  reachable ty s -> c_stack s = b :: p :: r -> is_block b = true ->
  ty x = false -> down x None (c_stack s) = None ->
  exists s', step ty (OVar x) s = (s', Go).
Proof.
  intros ty s x b p r Hr Es Hb Ht D. destruct (reachable_R ty s Hr) as (z & HR).
  pose proof (up_down_R s z x None HR (or_introl eq_refl)) as U. pose proof (down_R s z x HR) as DR.
  destruct (z_env z) as [|e es] eqn:Ez; [contradiction|]. rewrite D in DR.
  assert (C : clash (z_decls z) x None e = false).
  { unfold clash. rewrite DR. destruct (n_blocks e) as [|b0 [|b1 bs]] eqn:Eb; try reflexivity. exfalso.
    pose proof (R_st _ _ HR) as S. rewrite Es, Ez in S.
    assert (Sh : exists k g rest f, Renv (z_plain z) (c_nfun s) (z_decls z) k g f e /\ b :: p :: r = g ++ rest).
    { inversion S; subst; do 4 eexists; split; try eassumption; [symmetry; apply app_nil_r|reflexivity]. }
    destruct Sh as (k & g & rest & f & HE & Eg).
    pose proof (v_blocks _ _ _ _ _ _ _ HE) as VB. rewrite Eb in VB.
    inversion VB as [|s0 ? g0 ? _ VB']; subst. inversion VB'; subst.
    destruct (v_shape _ _ _ _ _ _ _ HE) as (bs & t & Q & _ & K). destruct bs as [|? [|? ?]]; inversion Q; subst.
    simpl in Eg. inversion Eg; subst. pose proof (v_kind _ _ _ _ _ _ _ HE) as VK.
    unfold is_block in Hb. destruct (sc_kind t); congruence. }
  apply U in C. cbn [step]. unfold register_var. rewrite Ht, C. eexists. reflexivity.
Qed.

Example C93_case :
  results no_types [[OOpen; OOpen; OVar 1%Z; OClose false; OVar 1%Z; OClose false]] = [CDone].
Proof. vm_compute. reflexivity. Qed.

(** In the outermost block of the script, or of a function, it is not. *)
Theorem C93_outermost_refuted : forall ty x f,
  ty x = false -> ty f = false -> x <> f ->
  results ty [[OOpen; OVar x; OClose false; OVar x]] = [CError] /\
  results ty [[OFun f []; OOpen; OVar x; OClose false; OVar x; OEnd]] = [CError] /\
  (* without the second declaration both are accepted, and the name is not visible *)
  results ty [[OOpen; OVar x; OClose false]] = [CDone] /\
  results ty [[OFun f []; OOpen; OVar x; OClose false; OEnd]] = [CDone] /\
  results ty [[OOpen; OVar x; OClose false; OUse x]] = [CError].
Proof.
  intros ty x f Hx Hf Hne.
  sess ltac:(rewrite ?Hx, ?Hf, ?Z.eqb_refl). repeat split.
Qed.

(* ------------------------------------------------------------------ *)
(** ** C94: instructions refer to symbols that exist *)

(** A function declared in a block without variables: the block is deleted with its symbols at
    the end of the compilation, and the instruction that loads the function keeps the pointer. *)
Theorem C94_block_function_refuted : forall ty f,
  ty f = false ->
  results ty [[OOpen; OFun f []; OEnd; OUse f; OClose false]] = [CDone] /\
  e_code (after ty [[OOpen; OFun f []; OEnd; OUse f; OClose false]]) = [LoadFunction 0] /\
  live_syms (after ty [[OOpen; OFun f []; OEnd; OUse f; OClose false]]) = [].
Proof.
  intros ty f Hf. sess ltac:(rewrite ?Hf, ?Z.eqb_refl). repeat split.
Qed.

(* ------------------------------------------------------------------ *)
(** ** C95: declared functions have code *)

(** When every script was accepted, every function has code. *)
Theorem C95_functions_have_code_partial : forall ty ls,
  Forall (fun c => c = CDone) (results ty ls) ->
  forall i v, In (i, v) (e_funs (after ty ls)) -> v <> None.
Proof. intros ty ls H. exact (all_coded ty ls H). Qed.

Example C95_case :
  results no_types [[OFun 1%Z [2%Z]; OUse 2%Z; OEnd]; [OUse 1%Z]] = [CDone; CDone] /\
  e_funs (after no_types [[OFun 1%Z [2%Z]; OUse 2%Z; OEnd]; [OUse 1%Z]]) =
    [(1, Some (mkfunc [1] [LoadLocal 0]))].
Proof. vm_compute. repeat split. Qed.

(** After a function with an error in its body the next script can use the function, which has
    no instructions. *)
Theorem C95_failed_function_refuted : forall ty f,
  ty f = false ->
  results ty [[OFun f []; OBad]; [OUse f]] = [CError; CDone] /\
  e_code (after ty [[OFun f []; OBad]; [OUse f]]) = [LoadFunction 0] /\
  e_funs (after ty [[OFun f []; OBad]; [OUse f]]) = [(1, None)].
Proof.
  intros ty f Hf.
  sess ltac:(rewrite ?Hf, ?Z.eqb_refl). repeat split.
Qed.

(** A function that had code loses it when its redefinition fails. *)
Theorem C95_redefinition_refuted : forall ty f,
  ty f = false ->
  results ty [[OFun f []; OEnd]; [OFun f []; OBad]; [OUse f]] = [CDone; CError; CDone] /\
  e_funs (after ty [[OFun f []; OEnd]]) = [(1, Some (mkfunc [] []))] /\
  e_funs (after ty [[OFun f []; OEnd]; [OFun f []; OBad]; [OUse f]]) = [(1, None)].
Proof.
  intros ty f Hf.
  sess ltac:(rewrite ?Hf, ?Z.eqb_refl). repeat split.
Qed.

(* ------------------------------------------------------------------ *)
(** ** C96: a script that fails leaves nothing *)

(** What remains after a script, accepted or not, are the declarations of its outermost block:
    the names of the main scope afterwards are those of [w_top]. *)
Theorem C96_what_remains_partial : forall ty ls,
  defined ty ls ->
  forall x, (exists y, In y (sc_vars (e_main (after ty ls)) ++ sc_funs (e_main (after ty ls))) /\ y_name y = x) <->
            (exists d, In d (w_top (meant ty ls)) /\ named (w_decls (meant ty ls)) x d = true).
Proof.
  intros ty ls N x. pose proof (session_RE ty ls N) as H. pose proof (E_top _ _ H) as HT.
  pose proof (t_syms _ _ _ _ HT) as SY. rewrite Forall_forall in SY. split.
  - intros (y & Hy & E). exists (y_id y). split; [|apply name_of; auto].
    apply in_app_or in Hy. destruct Hy as [Hy|Hy]; apply (in_map y_id) in Hy.
    + rewrite (t_vars _ _ _ _ HT) in Hy. apply filter_In in Hy. apply Hy.
    + rewrite (t_funs _ _ _ _ HT) in Hy. apply filter_In in Hy. apply Hy.
  - intros (d & Hd & E).
    assert (Q : In d (map y_id (sc_vars (e_main (after ty ls)) ++ sc_funs (e_main (after ty ls))))).
    { rewrite map_app, (t_vars _ _ _ _ HT), (t_funs _ _ _ _ HT). apply in_or_app. rewrite !filter_In.
      unfold named in E. unfold is_var, is_fn. destruct (nth_error (w_decls (meant ty ls)) d) as [[n [p|]]|]; auto; try discriminate. }
    apply in_map_iff in Q. destruct Q as (y & <- & Hy). exists y. split; [exact Hy|]. apply (name_of (w_decls (meant ty ls))); auto.
Qed.

(** A script that fails in a nested block leaves only what it declared outside it. *)
Example C96_case :
  results no_types [[OVar 1%Z; OOpen; OVar 2%Z; OBad]; [OUse 1%Z]; [OUse 2%Z]; [OVar 2%Z]] =
    [CError; CDone; CError; CDone] /\
  map y_name (sc_vars (e_main (after no_types [[OVar 1%Z; OOpen; OVar 2%Z; OBad]]))) = [1%Z].
Proof. vm_compute. repeat split. Qed.

(** The declarations of its outermost block stay: the corrected script is rejected. *)
Theorem C96_failed_script_refuted : forall ty x,
  ty x = false ->
  results ty [[OVar x; OBad]; [OVar x]] = [CError; CError] /\
  results ty [[OVar x]] = [CDone].
Proof.
  intros ty x Hx.
  sess ltac:(rewrite ?Hx, ?Z.eqb_refl). repeat split.
Qed.

Print Assumptions C60_visible_is_nearest.
Print Assumptions C60_use_is_nearest_declaration.
Print Assumptions C60_scripts_accepted_iff.
Print Assumptions C60_redeclaration_rejected.
Print Assumptions C60_second_function_refuted.
Print Assumptions C61_renumbering_partial.
Print Assumptions C61_function_slots.
Print Assumptions C61_global_slots.
Print Assumptions C61_globals_keep_their_slot.
Print Assumptions C61_link.
Print Assumptions C61_main_constant_refuted.
Print Assumptions C61_mixed_operator_refuted.
Print Assumptions C61_member_renumbered_refuted.
Print Assumptions C61_member_changed_refuted.
Print Assumptions C61_many_variables_refuted.
Print Assumptions C93_nested_partial.
Print Assumptions C93_outermost_refuted.
Print Assumptions C94_block_function_refuted.
Print Assumptions C95_functions_have_code_partial.
Print Assumptions C95_failed_function_refuted.
Print Assumptions C95_redefinition_refuted.
Print Assumptions C96_what_remains_partial.
Print Assumptions C96_failed_script_refuted.
