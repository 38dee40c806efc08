(** Facts about what remains between scripts: slots, functions with code. *)
From Coq Require Import ZArith List Bool Lia PeanoNat Permutation.
From Verif Require Import ScopeModel ScopeSpec ScopeProofs ScopeStepProofs ScopeSessionProofs.
Import ListNotations.
Open Scope nat_scope.

(* ------------------------------------------------------------------ *)
(** * The outermost block only grows *)

Definition top_of (z : sst) : list nat := last (n_blocks (last (z_env z) env0)) [].

Record grow (z z' : sst) : Prop := mkgrow {
  g_ext : ext (z_decls z) (z_decls z');
  g_top : exists more, top_of z' = top_of z ++ more;
  g_env : z_env z <> [] -> z_env z' <> [] }.

Lemma ext_trans : forall a b c, ext a b -> ext b c -> ext a c.
Proof.
  intros a b c [L1 S1] [L2 S2]. constructor; [lia|]. intros i Hi.
  destruct (S1 i Hi) as (A & B & C). destruct (S2 i) as (A' & B' & C'); [lia|].
  repeat split; [intros x; rewrite A'; apply A|congruence|congruence].
Qed.

Lemma grow_refl : forall z, grow z z.
Proof. intros z. constructor; [apply ext_refl|exists []; symmetry; apply app_nil_r|auto]. Qed.
Lemma grow_trans : forall a b c, grow a b -> grow b c -> grow a c.
Proof.
  intros a b c [E1 (m1 & T1) N1] [E2 (m2 & T2) N2]. constructor; [eapply ext_trans; eauto| |auto].
  exists (m1 ++ m2). rewrite T2, T1, app_assoc. reflexivity.
Qed.

Lemma put_decl_last : forall i bs, exists more, last (put_decl i bs) [] = last bs [] ++ more.
Proof.
  intros i [|b [|b' bs]]; cbn [put_decl last].
  - exists []. reflexivity.
  - exists [i]. reflexivity.
  - exists []. rewrite app_nil_r. reflexivity.
Qed.

Lemma top_hd : forall e e' es, (exists more, last (n_blocks e') [] = last (n_blocks e) [] ++ more) ->
  exists more, last (n_blocks (last (e' :: es) env0)) [] = last (n_blocks (last (e :: es) env0)) [] ++ more.
Proof.
  intros e e' [|e2 es] H; [exact H|]. exists []. rewrite app_nil_r. reflexivity.
Qed.

Lemma grow_put_var : forall x z, grow z (put_var x z).
Proof.
  intros x z. unfold put_var. destruct (z_env z) as [|e es] eqn:Ez; [apply grow_refl|].
  constructor; cbn [z_decls z_env].
  - apply ext_app.
  - unfold top_of. cbn [z_env]. rewrite Ez. apply top_hd. cbn [n_blocks]. apply put_decl_last.
  - discriminate.
Qed.

Lemma grow_same : forall z z', z_decls z' = z_decls z -> top_of z' = top_of z ->
  (z_env z <> [] -> z_env z' <> []) -> grow z z'.
Proof.
  intros z z' D T N. constructor; [rewrite D; apply ext_refl| |exact N].
  exists []. rewrite app_nil_r. exact T.
Qed.

Lemma grow_use : forall l z, grow z (use l z).
Proof.
  intros l z. unfold use. destruct (z_env z) as [|e es] eqn:Ez; [apply grow_refl|].
  apply grow_same; [reflexivity| |discriminate]. unfold top_of. cbn [z_env]. rewrite Ez. destruct es; reflexivity.
Qed.

Section Grow.
Variable ty : name -> bool.

Lemma grow_args : forall ps z, grow z (fst (spec_args ty ps z)).
Proof.
  induction ps as [|x ps IH]; intros z; [apply grow_refl|]. cbn [spec_args].
  destruct (z_env z); [apply grow_refl|]. destruct (ty x || _); [apply grow_refl|].
  eapply grow_trans; [apply grow_put_var|apply IH].
Qed.

Lemma grow_enter : forall f b th ps z, z_env z <> [] -> grow z (fst (spec_enter ty f b th ps z)).
Proof.
  intros f b th ps z N. unfold spec_enter.
  pose proof (grow_args ps (set_env (mkse f b [[]] [] [] th [] :: z_env z) z)) as Q.
  assert (G : grow z (set_env (mkse f b [[]] [] [] th [] :: z_env z) z)).
  { apply grow_same; [reflexivity| |discriminate]. unfold top_of. cbn [set_env z_env].
    destruct (z_env z) as [|e es]; [congruence|]. reflexivity. }
  destruct (spec_args ty ps _) as [z' [|]]; cbn [fst] in *; eapply grow_trans; eauto.
Qed.

Lemma grow_fun : forall x np z, grow z (fst (spec_fun ty x np z)).
Proof.
  intros x np z. unfold spec_fun. destruct (z_env z) as [|e es] eqn:Ez; [apply grow_refl|].
  destruct (visible _ _ _) as [i|].
  - destruct (nth_error (z_decls z) i) as [[n [[m q]|]]|] eqn:E; try apply grow_refl.
    destruct (existsb _ _); [|apply grow_refl]. cbn [fst].
    constructor; cbn [z_decls z_env].
    + pose proof (setd_ext i np (z_decls z)) as X. unfold setd in X. rewrite E in X. exact X.
    + exists []. unfold top_of. cbn [z_env]. rewrite Ez, app_nil_r. reflexivity.
    + discriminate.
  - destruct (ty x || _); [apply grow_refl|]. cbn [fst]. constructor; cbn [z_decls z_env].
    + apply ext_app.
    + unfold top_of. cbn [z_env]. rewrite Ez. apply top_hd. cbn [n_blocks]. apply put_decl_last.
    + discriminate.
Qed.

Lemma grow_step : forall o z, grow z (fst (spec_step ty o z)).
Proof.
  intros o z. unfold spec_step. destruct (z_env z) as [|e es] eqn:Ez; [apply grow_refl|].
  assert (GP : forall b z', grow z z' -> grow z (and_plain b z')).
  { intros b z' [A B C]. constructor; assumption. }
  assert (SV : forall x, grow z (fst (spec_var ty x z))).
  { intros x. unfold spec_var. rewrite Ez. destruct (ty x || _); [apply grow_refl|apply grow_put_var]. }
  destruct o as [x|x|x|a a'| |lp|x ps|ps| |].
  - apply SV.
  - specialize (SV x). destruct (spec_var ty x z) as [z' [|]]; cbn [fst] in *; [|exact SV].
    apply GP. eapply grow_trans; [exact SV|apply grow_use].
  - destruct (meaning ty x z); cbn [fst]; [apply grow_use|apply grow_refl].
  - destruct (meaning_rand ty a z), (meaning_rand ty a' z); cbn [fst]; try apply grow_refl.
    apply GP. apply grow_use.
  - destruct (Nat.ltb (depth e) 10); [|apply grow_refl]. cbn [fst].
    apply grow_same; [reflexivity| |discriminate]. unfold top_of. cbn [set_env z_env]. rewrite Ez.
    destruct es; [|reflexivity]. cbn [last n_blocks].
    destruct (n_blocks e) as [|b bs]; reflexivity.
  - destruct (n_blocks e) as [|b [|b' bs]] eqn:Eb; try apply grow_refl. cbn [fst].
    apply grow_same; [reflexivity| |discriminate]. unfold top_of. cbn [and_keep set_env z_env]. rewrite Ez.
    destruct es; [|reflexivity]. cbn [last n_blocks]. rewrite Eb. reflexivity.
  - pose proof (grow_fun x (length ps) z) as F.
    destruct (spec_fun ty x (length ps) z) as [z' [q|]]; cbn [fst] in *; [|exact F].
    eapply grow_trans; [exact F|]. apply grow_enter. apply F. rewrite Ez. discriminate.
  - eapply grow_trans; [|apply grow_enter; cbn [z_env]; discriminate].
    apply grow_same; [reflexivity| |discriminate]. unfold top_of. cbn [z_env]. rewrite Ez. reflexivity.
  - destruct es as [|e2 es]; [apply grow_refl|]. destruct (n_blocks e) as [|b [|b' bs]]; try apply grow_refl.
    cbn [fst]. apply grow_same; [reflexivity| |discriminate]. unfold top_of. cbn [z_env]. rewrite Ez. reflexivity.
  - apply grow_refl.
Qed.

Lemma grow_run : forall l z, grow z (fst (spec_run ty l z)).
Proof.
  induction l as [|o l IH]; intros z; [apply grow_refl|]. cbn [spec_run].
  pose proof (grow_step o z) as G. destruct (spec_step ty o z) as [z' [|]]; cbn [fst] in *; [|exact G].
  eapply grow_trans; [exact G|apply IH].
Qed.

Lemma grow_compile : forall l w,
  ext (w_decls w) (w_decls (fst (spec_compile ty l w))) /\
  exists more, w_top (fst (spec_compile ty l w)) = w_top w ++ more.
Proof.
  intros l w. unfold spec_compile. pose proof (grow_run l (spec_begin w)) as [A B _].
  destruct (spec_run ty l (spec_begin w)) as [z b]. cbn [fst w_decls w_top] in *. split; [exact A|]. exact B.
Qed.

(** What a variable of the main scope is for the outside. *)
Definition global (y : sym) : nat * name * nat := (y_id y, y_name y, slot y).

Lemma name_of : forall ds y x, Rsym ds y -> (named ds x (y_id y) = true <-> y_name y = x).
Proof.
  intros ds y x H. unfold named. rewrite H. unfold decl_of. cbn [d_name]. apply Z.eqb_eq.
Qed.

Lemma globals_prefix : forall v v' ds ds' more,
  map y_id v' = map y_id v ++ more ->
  Forall (Rsym ds) v -> Forall (Rsym ds') v' -> ext ds ds' ->
  map slot v = seq 0 (length v) -> map slot v' = seq 0 (length v') ->
  exists rest, map global v' = map global v ++ rest.
Proof.
  intros v v' ds ds' more E Rv Rv' X S S'.
  assert (G : forall v v' n more, map y_id v' = map y_id v ++ more ->
     Forall (Rsym ds) v -> Forall (Rsym ds') v' ->
     map slot v = seq n (length v) -> map slot v' = seq n (length v') ->
     exists rest, map global v' = map global v ++ rest).
  { clear - X. induction v as [|y v IH]; intros v' n more E Rv Rv' S S'; [eexists; reflexivity|].
    destruct v' as [|y' v']; [discriminate|]. simpl in E. inversion E as [[E1 E2]].
    inversion Rv; inversion Rv'; subst. simpl in S, S'. inversion S as [[Sa Sb]]. inversion S' as [[Sc Sd]]. subst.
    rewrite Sc in Sd.
    destruct (IH v' (Datatypes.S (slot y)) more E2) as (rest & Q); auto.
    exists rest. cbn [map app]. rewrite Q. f_equal. unfold global. rewrite E1. f_equal; [|congruence].
    f_equal. assert (N : named ds (y_name y) (y_id y) = true) by (apply name_of; auto).
    assert (L : y_id y < length ds) by (apply Rsym_lt; assumption).
    destruct (x_same _ _ X _ L) as (Q1 & _). rewrite <- Q1, <- E1 in N. apply (name_of ds' y') in N; assumption. }
  eapply G; eauto.
Qed.

Lemma slots_vars : forall m, map slot (preorder m) = seq 0 (length (preorder m)) ->
  map slot (sc_vars m) = seq 0 (length (sc_vars m)).
Proof.
  intros [k f u v g c] S. rewrite preorder_eq, map_app, app_length, seq_app in S. cbn [sc_vars].
  assert (X : forall (a b c d : list nat), length a = length c -> a ++ b = c ++ d -> a = c).
  { induction a as [|x a IH]; intros b0 [|y c0] d L Q; simpl in *; try discriminate; [reflexivity|].
    inversion Q; subst. f_equal. eapply IH; eauto. }
  eapply X; [|exact S]. rewrite map_length, seq_length. reflexivity.
Qed.

Theorem globals_stay : forall l e w,
  RE e w -> snd (compile ty l e) <> CUndef ->
  exists rest, map global (sc_vars (e_main (fst (compile ty l e)))) =
               map global (sc_vars (e_main e)) ++ rest.
Proof.
  intros l e w H N. pose proof (compile_refines ty l e w H) as C.
  destruct (grow_compile l w) as (X & more & T).
  destruct (compile ty l e) as [e' c]. destruct (spec_compile ty l w) as [w' b]. cbn [fst snd] in *.
  assert (H' : RE e' w') by (destruct c; [apply C|apply C|congruence]).
  pose proof (E_top _ _ H) as T1. pose proof (E_top _ _ H') as T2.
  assert (IDS : map y_id (sc_vars (e_main e')) = map y_id (sc_vars (e_main e)) ++ filter (is_var (w_decls w')) more).
  { rewrite (t_vars _ _ _ _ T1), (t_vars _ _ _ _ T2), T, filter_app. f_equal.
    apply filter_same. intros i Hi. pose proof (t_range _ _ _ _ T1) as R1. rewrite Forall_forall in R1.
    apply X. apply R1. exact Hi. }
  eapply globals_prefix; [exact IDS| | |exact X| |].
  - pose proof (t_syms _ _ _ _ T1) as S. apply Forall_app in S. apply S.
  - pose proof (t_syms _ _ _ _ T2) as S. apply Forall_app in S. apply S.
  - apply slots_vars. apply H.
  - apply slots_vars. apply H'.
Qed.

(* ------------------------------------------------------------------ *)
(** * Functions have code *)

Record coded (z : sst) : Prop := mkcoded {
  k_open : forall i, In (i, None) (z_done z) -> i <> 0 /\ In i (map n_no (z_env z));
  k_fids : forall n p q, In (mkd n (Some (p, q))) (z_decls z) -> q <> 0;
  k_pos : 0 < z_nfun z;
  k_main : n_no (last (z_env z) env0) = 0 }.

Lemma set_done_none : forall l i v j, In (j, None) (set_done l i v) ->
  (j = i /\ v = None) \/ (j <> i /\ In (j, None) l).
Proof.
  intros l i v j H. unfold set_done in H. destruct H as [H|H].
  - inversion H. auto.
  - apply filter_In in H. destruct H as [H N]. simpl in N. apply negb_true_iff in N. apply Nat.eqb_neq in N. auto.
Qed.

Lemma in_firstn : forall A n (l : list A) a, In a (firstn n l) -> In a l.
Proof. intros A n l a H. rewrite <- (firstn_skipn n l). apply in_or_app. auto. Qed.
Lemma in_skipn : forall A n (l : list A) a, In a (skipn n l) -> In a l.
Proof. intros A n l a H. rewrite <- (firstn_skipn n l). apply in_or_app. auto. Qed.

Definition keeps (z z' : sst) : Prop :=
  z_done z' = z_done z /\ z_nfun z' = z_nfun z /\ map n_no (z_env z') = map n_no (z_env z) /\
  forall d, In d (z_decls z') -> In d (z_decls z) \/ d_fun d = None.

Lemma last_no : forall l l', map n_no l = map n_no l' -> n_no (last l env0) = n_no (last l' env0).
Proof.
  induction l as [|a l IH]; intros [|b l'] H; try discriminate; [reflexivity|].
  simpl in H. inversion H as [[H1 H2]]. destruct l, l'; try discriminate; [exact H1|]. apply (IH (s0 :: l')). exact H2.
Qed.

Lemma keeps_coded : forall z z', keeps z z' -> coded z -> coded z'.
Proof.
  intros z z' (A & B & C & D) [K1 K2 K3 K4]. constructor.
  - intros i Hi. rewrite A in Hi. rewrite C. auto.
  - intros n p q Hd. destruct (D _ Hd) as [Q|Q]; [eapply K2; eauto|discriminate].
  - lia.
  - rewrite (last_no _ _ C). exact K4.
Qed.

Lemma keeps_refl : forall z, keeps z z.
Proof. intros z. repeat split; auto. Qed.
Lemma keeps_put_var : forall x z, keeps z (put_var x z).
Proof.
  intros x z. unfold put_var. destruct (z_env z) as [|e es] eqn:Ez; [apply keeps_refl|].
  unfold keeps. cbn. rewrite Ez. repeat split; auto. intros d Hd. apply in_app_or in Hd.
  destruct Hd as [Hd|[<-|[]]]; auto.
Qed.
Lemma keeps_use : forall l z, keeps z (use l z).
Proof.
  intros l z. unfold use. destruct (z_env z) as [|e es] eqn:Ez; [apply keeps_refl|].
  unfold keeps. cbn. rewrite Ez. repeat split; auto.
Qed.

Lemma coded_args : forall ps z, coded z -> coded (fst (spec_args ty ps z)).
Proof.
  induction ps as [|x ps IH]; intros z K; [exact K|]. cbn [spec_args].
  destruct (z_env z); [exact K|]. destruct (ty x || _); [exact K|].
  apply IH. eapply keeps_coded; [apply keeps_put_var|exact K].
Qed.

Lemma coded_enter : forall f b th ps z,
  z_env z <> [] -> (forall i, In (i, None) (z_done z) -> i <> 0 /\ (i = f \/ In i (map n_no (z_env z)))) ->
  (forall n p q, In (mkd n (Some (p, q))) (z_decls z) -> q <> 0) -> 0 < z_nfun z ->
  n_no (last (z_env z) env0) = 0 ->
  coded (fst (spec_enter ty f b th ps z)).
Proof.
  intros f b th ps z N K1 K2 K3 K4. unfold spec_enter.
  assert (K : coded (set_env (mkse f b [[]] [] [] th [] :: z_env z) z)).
  { constructor; cbn [set_env z_done z_env z_decls z_nfun]; auto.
    - intros i Hi. destruct (K1 i Hi) as [A [B|B]]; (split; [exact A|]); simpl; auto.
    - destruct (z_env z); [congruence|]. exact K4. }
  pose proof (coded_args ps _ K) as Q.
  destruct (spec_args ty ps _) as [z' [|]]; cbn [fst] in *; exact Q.
Qed.

Lemma coded_step : forall o z, coded z -> coded (fst (spec_step ty o z)).
Proof.
  intros o z K. unfold spec_step. destruct (z_env z) as [|e es] eqn:Ez; [exact K|].
  assert (KP : forall b z', coded z' -> coded (and_plain b z')).
  { intros b z' [A B C D]. constructor; assumption. }
  assert (SV : forall x, coded (fst (spec_var ty x z))).
  { intros x. unfold spec_var. rewrite Ez. destruct (ty x || _); [exact K|].
    eapply keeps_coded; [apply keeps_put_var|exact K]. }
  destruct o as [x|x|x|a a'| |lp|x ps|ps| |].
  - apply SV.
  - specialize (SV x). destruct (spec_var ty x z) as [z' [|]]; cbn [fst] in *; [|exact SV].
    apply KP. eapply keeps_coded; [apply keeps_use|exact SV].
  - destruct (meaning ty x z); cbn [fst]; [|exact K]. eapply keeps_coded; [apply keeps_use|exact K].
  - destruct (meaning_rand ty a z), (meaning_rand ty a' z); cbn [fst]; try exact K.
    apply KP. eapply keeps_coded; [apply keeps_use|exact K].
  - destruct (Nat.ltb (depth e) 10); [|exact K]. cbn [fst]. eapply keeps_coded; [|exact K].
    unfold keeps. cbn. rewrite Ez. repeat split; auto.
  - destruct (n_blocks e) as [|b [|b' bs]]; try exact K. cbn [fst]. eapply keeps_coded; [|exact K].
    unfold keeps. cbn. rewrite Ez. repeat split; auto.
  - unfold spec_fun. rewrite Ez. destruct K as [K1 K2 K3 K4].
    destruct (visible _ _ _) as [i|].
    + destruct (nth_error (z_decls z) i) as [[n [[m q]|]]|] eqn:E; try (constructor; assumption).
      destruct (existsb _ _); [|constructor; assumption].
      apply coded_enter; cbn [z_env z_done z_decls z_nfun].
      * discriminate.
      * intros j Hj. apply set_done_none in Hj. destruct Hj as [[-> _]|[Nj Hj]].
        -- split; [|auto]. eapply K2. eapply nth_error_In. exact E.
        -- rewrite Ez in K1. destruct (K1 j Hj). auto.
      * intros n0 p0 q0 Hd. apply in_app_or in Hd. destruct Hd as [Hd|[Hd|Hd]].
        -- eapply K2. eapply in_firstn. exact Hd.
        -- inversion Hd; subst. eapply K2. eapply nth_error_In. exact E.
        -- eapply K2. eapply in_skipn. exact Hd.
      * exact K3.
      * rewrite Ez in K4. exact K4.
    + destruct (ty x || _); [constructor; assumption|].
      apply coded_enter; cbn [z_env z_done z_decls z_nfun].
      * discriminate.
      * intros j Hj. apply set_done_none in Hj. destruct Hj as [[-> _]|[Nj Hj]].
        -- split; [lia|auto].
        -- rewrite Ez in K1. destruct (K1 j Hj). auto.
      * intros n0 p0 q0 Hd. apply in_app_or in Hd. destruct Hd as [Hd|[Hd|[]]].
        -- eapply K2. exact Hd.
        -- inversion Hd; subst. lia.
      * lia.
      * rewrite Ez in K4. destruct es; exact K4.
  - destruct K as [K1 K2 K3 K4]. apply coded_enter; cbn [z_env z_done z_decls z_nfun].
    + discriminate.
    + intros j Hj. apply set_done_none in Hj. destruct Hj as [[-> _]|[Nj Hj]].
      * split; [lia|auto].
      * rewrite Ez in K1. destruct (K1 j Hj). auto.
    + exact K2.
    + lia.
    + rewrite Ez in K4. exact K4.
  - destruct es as [|e2 es]; [exact K|]. destruct (n_blocks e) as [|b [|b' bs]]; try exact K.
    cbn [fst]. destruct K as [K1 K2 K3 K4]. rewrite Ez in *. constructor; cbn [z_env z_done z_decls z_nfun]; auto.
    intros j Hj. apply set_done_none in Hj. destruct Hj as [[_ Q]|[Nj Hj]]; [discriminate|].
    destruct (K1 j Hj) as [A B]. split; [exact A|]. cbn [map] in B. destruct B as [B|B]; [congruence|exact B].
  - exact K.
Qed.

Lemma coded_run : forall l z, coded z -> coded (fst (spec_run ty l z)).
Proof.
  induction l as [|o l IH]; intros z K; [exact K|]. cbn [spec_run].
  pose proof (coded_step o z K) as G. destruct (spec_step ty o z) as [z' [|]]; cbn [fst] in *; auto.
Qed.

Definition wcoded (w : world) : Prop :=
  (forall i, ~ In (i, None) (w_done w)) /\
  (forall n p q, In (mkd n (Some (p, q))) (w_decls w) -> q <> 0) /\ 0 < w_nfun w.

Lemma coded_compile : forall l w, wcoded w -> snd (spec_compile ty l w) = true ->
  wcoded (fst (spec_compile ty l w)).
Proof.
  intros l w (A & B & C) H. unfold spec_compile in *.
  assert (K : coded (spec_begin w)).
  { constructor; cbn; auto. intros i Hi. exfalso. eapply A; eauto. }
  pose proof (coded_run l _ K) as Q. destruct (spec_run ty l (spec_begin w)) as [z b].
  cbn [fst snd] in *. destruct Q as [K1 K2 K3 K4].
  destruct (z_env z) as [|e1 [|e2 es]] eqn:Ez; try discriminate.
  repeat split; cbn [w_done w_decls w_nfun]; auto.
  intros i Hi. destruct (K1 i Hi) as [N I]. cbn [map] in I. cbn [last] in K4. destruct I as [I|[]]. congruence.
Qed.

Lemma coded_session : forall ls w, wcoded w -> Forall (fun b => b = true) (snd (spec_session ty ls w)) ->
  wcoded (fst (spec_session ty ls w)).
Proof.
  induction ls as [|l ls IH]; intros w K H; [exact K|]. cbn [spec_session] in *.
  pose proof (coded_compile l w K) as C. destruct (spec_compile ty l w) as [w' b]. cbn [fst snd] in C.
  specialize (IH w'). destruct (spec_session ty ls w') as [w'' bs]. cbn [fst snd] in *.
  inversion H; subst. auto.
Qed.

Theorem all_coded : forall ls,
  Forall (fun c => c = CDone) (snd (session ty ls fresh)) ->
  forall i v, In (i, v) (e_funs (fst (session ty ls fresh))) -> v <> None.
Proof.
  intros ls H i v Hv ->. destruct (session_refines ty ls fresh first_world RE_fresh) as [S _].
  assert (N : ~ In CUndef (snd (session ty ls fresh))).
  { intros Q. rewrite Forall_forall in H. specialize (H _ Q). discriminate. }
  destruct (S N) as [S1 S2].
  assert (W : wcoded (fst (spec_session ty ls first_world))).
  { apply coded_session.
    - repeat split; cbn; auto.
    - rewrite S1 in H. clear - H. induction (snd (spec_session ty ls first_world)) as [|b bs IH]; [constructor|].
      cbn [map] in H. inversion H; subst. constructor; [destruct b; [reflexivity|discriminate]|auto]. }
  pose proof (E_done _ _ S2) as D. destruct (Forall2_In _ _ _ _ _ _ D Hv) as ([j o] & Hj & Q1 & Q2).
  simpl in *. subst j. destruct o; [contradiction|]. destruct W as (W & _). eapply W. exact Hj.
Qed.

(* ------------------------------------------------------------------ *)
(** * The slots of a scope *)

(** The blocks of a function: a scope and the blocks below it. *)
Fixpoint blocks (s : sc) {struct s} : list sc :=
  match s with
  | Sc k f u v g c =>
    Sc k f u v g c ::
      (fix go (l : list sc) : list sc :=
         match l with
         | [] => []
         | d :: t => (if is_block d then blocks d else []) ++ go t
         end) c
  end.

Lemma blocks_eq : forall k f u v g c,
  blocks (Sc k f u v g c) = Sc k f u v g c :: flat_map (blk blocks) c.
Proof. reflexivity. Qed.

Lemma block_segment : forall s b, In b (blocks s) -> exists l r, preorder s = l ++ sc_vars b ++ r.
Proof.
  intros s. induction s as [k f u v g c IH] using sc_ind2. intros b Hb.
  rewrite blocks_eq in Hb. rewrite preorder_eq. destruct Hb as [<-|Hb].
  - exists [], (flat_map (blk preorder) c). reflexivity.
  - apply in_flat_map in Hb. destruct Hb as (d & Hd & Hb). unfold blk in Hb.
    destruct (is_block d) eqn:B; [|destruct Hb]. rewrite Forall_forall in IH.
    destruct (IH d Hd b Hb) as (l & r & E). apply in_split in Hd. destruct Hd as (c1 & c2 & ->).
    rewrite flat_map_app. cbn [flat_map]. unfold blk at 2. rewrite B, E.
    exists (v ++ flat_map (blk preorder) c1 ++ l), (r ++ flat_map (blk preorder) c2).
    rewrite <- !app_assoc. reflexivity.
Qed.

Lemma seq_segment : forall l m r n, l ++ m ++ r = seq n (length (l ++ m ++ r)) ->
  m = seq (n + length l) (length m).
Proof.
  intros l m r n H. rewrite !app_length, !seq_app in H.
  assert (X : forall (a b c d : list nat), length a = length c -> a ++ b = c ++ d -> a = c /\ b = d).
  { induction a as [|x a IH]; intros b0 [|y c0] d L Q; simpl in *; try discriminate; [auto|].
    inversion Q; subst. destruct (IH b0 c0 d) as [-> ->]; auto. }
  apply X in H; [|rewrite seq_length; reflexivity]. destruct H as [_ H].
  apply X in H; [|rewrite seq_length; reflexivity]. apply H.
Qed.

Lemma scope_slots : forall t b,
  map slot (preorder t) = seq 0 (length (preorder t)) -> In b (blocks t) ->
  pop_slots b = map slot (sc_vars b).
Proof.
  intros t b S Hb. destruct (block_segment t b Hb) as (l & r & E). rewrite E in S.
  rewrite !map_app in S. rewrite <- (map_length slot) in S. rewrite !map_app in S. apply seq_segment in S.
  rewrite !map_length in S. unfold pop_slots. destruct (sc_vars b) as [|y v]; [reflexivity|].
  rewrite S. cbn [map length seq] in S. inversion S. cbn [map length]. 
  rewrite H0. reflexivity.
Qed.

(** Every variable of the scope of a function that was compiled has the slot of
    its position among the local variables. *)
Definition placed (locals : list nat) (t : sc) : Prop :=
  locals = map y_id (preorder t) /\
  (forall y, In y (preorder t) -> nth_error locals (slot y) = Some (y_id y)) /\
  forall b, In b (blocks t) -> pop_slots b = map slot (sc_vars b).

Lemma placed_intro : forall locals t,
  locals = map y_id (preorder t) -> map slot (preorder t) = seq 0 (length (preorder t)) ->
  placed locals t.
Proof.
  intros locals t E S. split; [exact E|]. split.
  - intros y Hy. apply In_nth_error in Hy. destruct Hy as (j & Hj).
    assert (Q : nth_error (map slot (preorder t)) j = Some (slot y)) by (apply map_nth_error; exact Hj).
    rewrite S in Q. apply nth_error_nth with (d := 0) in Q. rewrite seq_nth in Q.
    + simpl in Q. subst j. rewrite E. apply map_nth_error. exact Hj.
    + apply nth_error_Some. congruence.
  - intros b Hb. eapply scope_slots; eauto.
Qed.

(** States the compiler can be in. *)
Definition reachable (s : cst) : Prop :=
  exists ls l, ~ In CUndef (snd (session ty ls fresh)) /\
  run ty l (begin (fst (session ty ls fresh))) = (s, Go).

Lemma reachable_R : forall s, reachable s -> exists z, R s z.
Proof.
  intros s (ls & l & N & E). destruct (session_refines ty ls fresh first_world RE_fresh) as [S _].
  destruct (S N) as [_ S2]. pose proof (run_refines ty l _ _ (begin_R _ _ S2)) as Q. rewrite E in Q.
  destruct Q as [_ Q]. eauto.
Qed.

Theorem function_placed : forall s s',
  reachable s -> step ty OEnd s = (s', Go) ->
  exists f fn t p r g c,
    c_fs s = f :: g /\ c_stack s' = add_kids [t] p :: r /\
    In (fs_fid f, Some fn) (c_funs s') /\ c = fn_code fn /\ placed (fn_locals fn) t.
Proof.
  intros s s' Hr E. destruct (reachable_R s Hr) as (z & HR). cbn [step] in E.
  destruct (c_stack s) as [|t [|p r]] eqn:Et; try discriminate.
  destruct (c_fs s) as [|f [|g q]] eqn:Ef; try discriminate.
  assert (F : exists vs acc, Fin (z_plain z) f t vs acc \/ sc_kind t = SBlock \/ sc_kind t = SMain).
  { pose proof (R_st _ _ HR) as S. rewrite Et, Ef in S.
    inversion S as [|k g0 f0 e0 st0 f0' fs0 es0 He K Hbase Hne Hr' EQ1]; subst.
    destruct (v_shape _ _ _ _ _ _ _ He) as (bs & u & Eg & Hb & Hk). destruct bs as [|b0 bs].
    - simpl in Eg. subst g0. simpl in EQ1. inversion EQ1; subst.
      pose proof (v_blocks _ _ _ _ _ _ _ He) as HB. inversion HB as [|? b ? l Q1 Q2]; subst. inversion Q2; subst.
      eexists. eexists. left. eapply Renv_Fin; eauto.
    - subst g0. simpl in EQ1. inversion EQ1; subst. exists [], []. right. left.
      pose proof (Forall_inv Hb) as B. cbn beta in B. unfold is_block in B. destruct (sc_kind t); congruence. }
  destruct F as (vs & acc & [F|F]).
  2: { destruct F as [F|F]; rewrite F in E; discriminate. }
  pose proof (finalize_ok _ _ _ _ _ F) as FO.
  assert (K : finalize f t <> PErr /\ exists fn t', finalize f t = POk fn t' /\
     s' = mkcst (add_kids [t'] p :: r) (g :: q) (c_next s) (c_nfun s)
             (set_func (c_funs s) (fs_fid f) (Some fn)) (c_orphans s)).
  { destruct (sc_kind t); try discriminate; destruct (finalize f t) as [fn t'| |]; try discriminate;
      inversion E; (split; [discriminate|eauto]). }
  destruct K as (_ & fn & t' & Q & ->). rewrite Q in FO. destruct FO as (_ & _ & FL & FS).
  exists f, fn, t', p, r, (g :: q), (fn_code fn). cbn [c_stack c_funs].
  split; [reflexivity|]. split; [reflexivity|]. split; [left; reflexivity|]. split; [reflexivity|].
  apply placed_intro; assumption.
Qed.
End Grow.
