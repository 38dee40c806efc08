(** The symbols that instructions load are not deleted, while no block with functions and
    without variables is closed. *)
From Coq Require Import ZArith List Bool Lia PeanoNat Permutation.
From Verif Require Import ScopeModel ScopeSpec ScopeProofs ScopeStepProofs ScopeSessionProofs ScopeFactProofs.
Import ListNotations.
Open Scope nat_scope.

Definition syms (d : sc) : list sym := sc_vars d ++ sc_funs d.

(** Ids of the symbols of all scopes below [l] whose function satisfies [q]. *)
Definition ids (q : nat -> bool) (l : list sc) : list nat :=
  flat_map (fun d => if q (sc_fid d) then map y_id (syms d) else []) (flat_map subscopes l).
Definition any (f : nat) : bool := true.
Definition nz (f : nat) : bool := negb (Nat.eqb f 0).

Lemma subscopes_eq : forall k f u v g c,
  subscopes (Sc k f u v g c) = Sc k f u v g c :: flat_map subscopes c.
Proof. intros. reflexivity. Qed.

Lemma ids_app : forall q a b, ids q (a ++ b) = ids q a ++ ids q b.
Proof. intros. unfold ids. rewrite !flat_map_app. reflexivity. Qed.
Lemma ids_cons : forall q a l, ids q (a :: l) = ids q [a] ++ ids q l.
Proof. intros. apply (ids_app q [a] l). Qed.
Lemma ids_nil : forall q, ids q [] = [].
Proof. reflexivity. Qed.
Lemma ids_node : forall q k f u v g c,
  ids q [Sc k f u v g c] = (if q f then map y_id (v ++ g) else []) ++ ids q c.
Proof.
  intros. unfold ids. cbn [flat_map]. rewrite app_nil_r, subscopes_eq. cbn [flat_map sc_fid].
  unfold syms at 1. reflexivity.
Qed.

Lemma in_ids : forall q l i, In i (ids q l) <-> exists s, In s l /\ In i (ids q [s]).
Proof.
  intros q l i. induction l as [|a l IH].
  - split; [intros []|]. intros (s & [] & _).
  - rewrite ids_cons, in_app_iff, IH. split.
    + intros [H|(s & H & K)]; [exists a|exists s]; simpl; auto.
    + intros (s & [<-|H] & K); [left|right]; eauto.
Qed.

Lemma ids_any : forall q l i, In i (ids q l) -> In i (ids any l).
Proof.
  intros q l i H. unfold ids in *. apply in_flat_map in H. destruct H as (d & Hd & H).
  apply in_flat_map. exists d. split; [exact Hd|]. cbn. destruct (q (sc_fid d)); [exact H|destruct H].
Qed.

Lemma ids_map : forall q (g : sc -> sc) l,
  (forall s, In s l -> ids q [g s] = ids q [s]) -> ids q (map g l) = ids q l.
Proof.
  intros q g. induction l as [|a l IH]; intros H; [reflexivity|]. cbn [map].
  rewrite ids_cons, (ids_cons q a), H, IH; auto; [intros; apply H; right; assumption|left; reflexivity].
Qed.

Lemma ids_move : forall q m s, ids q [move_sc m s] = ids q [s].
Proof.
  intros q m s. induction s as [k f u v g c IH] using sc_ind2.
  rewrite move_sc_eq, !ids_node. f_equal.
  - destruct (q f); [|reflexivity]. rewrite !map_app, map_map. f_equal.
    apply map_ext. intros. apply move_sym_id.
  - apply ids_map. rewrite Forall_forall in IH. exact IH.
Qed.

Lemma ids_same : forall q t t', same_but_slots t t' -> ids q [t'] = ids q [t].
Proof. intros q t t' [->|(m & ->)]; [reflexivity|apply ids_move]. Qed.

Lemma ids_kids : forall q l p i, In i (ids q [add_kids l p]) <-> In i (ids q [p]) \/ In i (ids q l).
Proof.
  intros q l [k f u v g c] i. cbn [add_kids]. rewrite !ids_node, ids_app, !in_app_iff. tauto.
Qed.

Lemma ids_close : forall q lp t i, In i (ids q [t]) -> In i (ids q (close_block lp t)).
Proof.
  intros q lp [k f u v g c] i H. cbn [close_block]. destruct v as [|y v]; [destruct lp|]; try exact H.
  rewrite ids_cons, ids_node. rewrite ids_node in H. rewrite in_app_iff in *. rewrite in_app_iff.
  cbn [ids flat_map]. tauto.
Qed.

Lemma ids_add : forall q t y i, In i (ids q [t]) -> In i (ids q [add_var y t]) /\ In i (ids q [add_fun y t]).
Proof.
  intros q [k f u v g c] y i H. cbn [add_var add_fun]. rewrite !ids_node in *. rewrite !in_app_iff in *.
  destruct (q f); [|tauto]. rewrite !map_app in *. rewrite !in_app_iff in *. cbn. tauto.
Qed.

Lemma set_params_id : forall i np y, y_id (set_params i np y) = y_id y.
Proof. intros i np y. unfold set_params. destruct (Nat.eqb _ _); [|reflexivity]. destruct (y_kind y); reflexivity. Qed.

Lemma ids_params : forall q t i np, ids q [map_funs (set_params i np) t] = ids q [t].
Proof.
  intros q [k f u v g c] i np. cbn [map_funs]. rewrite !ids_node, !map_app, map_map. f_equal.
  destruct (q f); [|reflexivity]. f_equal. apply map_ext. intros. apply set_params_id.
Qed.

Lemma ids_collapse : forall q r t i, In i (ids q (t :: r)) -> In i (ids q [collapse t r]).
Proof.
  intros q. induction r as [|p r IH]; intros t i H; [exact H|]. cbn [collapse]. apply IH.
  rewrite ids_cons, in_app_iff, ids_kids. rewrite ids_cons, (ids_cons q p), !in_app_iff in H. tauto.
Qed.

(* ------------------------------------------------------------------ *)
(** * Unused scopes are empty *)

Definition empty_if_unused (e : sc) : Prop := sc_unused e = true -> syms e = [] /\ sc_kids e = [].
Definition neat (s : sc) : Prop := Forall empty_if_unused (subscopes s).

Lemma Forall_flat : forall A B (P : B -> Prop) (f : A -> list B) l,
  Forall P (flat_map f l) <-> Forall (fun a => Forall P (f a)) l.
Proof.
  intros A B P f. induction l as [|a l IH]; cbn [flat_map]; [split; constructor|].
  rewrite Forall_app, IH. split; [intros [H K]; constructor; assumption|intros H; inversion H; auto].
Qed.

Lemma neat_node : forall k f u v g c,
  neat (Sc k f u v g c) <-> (u = true -> v ++ g = [] /\ c = []) /\ Forall neat c.
Proof.
  intros. unfold neat. rewrite subscopes_eq. split.
  - intros H. inversion H; subst. split; [exact H2|]. apply Forall_flat in H3. exact H3.
  - intros [H K]. constructor; [exact H|]. apply Forall_flat. exact K.
Qed.

Lemma neat_used : forall s, sc_unused s = false -> Forall neat (sc_kids s) -> neat s.
Proof. intros [k f u v g c] U H. apply neat_node. cbn in *. split; [congruence|exact H]. Qed.
Lemma neat_kids : forall s, neat s -> Forall neat (sc_kids s).
Proof. intros [k f u v g c] H. apply neat_node in H. apply H. Qed.

Lemma neat_move : forall m s, neat s -> neat (move_sc m s).
Proof.
  intros m s. induction s as [k f u v g c IH] using sc_ind2. intros H. rewrite move_sc_eq.
  apply neat_node in H. destruct H as [H1 H2]. apply neat_node. split.
  - intros U. destruct (H1 U) as [E ->]. apply app_eq_nil in E. destruct E as [-> ->]. auto.
  - apply Forall_forall. intros d Hd. apply in_map_iff in Hd. destruct Hd as (d0 & <- & Hd).
    rewrite Forall_forall in IH, H2. auto.
Qed.

Lemma neat_prune : forall s, neat s -> neat (prune s).
Proof.
  intros s. induction s as [k f u v g c IH] using sc_ind2. intros H. rewrite prune_eq.
  apply neat_node in H. destruct H as [H1 H2]. apply neat_node. split.
  - intros U. destruct (H1 U) as [E ->]. auto.
  - apply Forall_forall. intros d Hd. apply in_map_iff in Hd. destruct Hd as (d0 & <- & Hd).
    apply filter_In in Hd. rewrite Forall_forall in IH, H2. apply IH; [|apply H2]; apply Hd.
Qed.

Lemma ids_prune : forall q s i, neat s -> In i (ids q [s]) -> In i (ids q [prune s]).
Proof.
  intros q s. induction s as [k f u v g c IH] using sc_ind2. intros i H Hi. rewrite prune_eq.
  apply neat_node in H. destruct H as [_ H2]. rewrite ids_node, in_app_iff in *.
  destruct Hi as [Hi|Hi]; [left; exact Hi|]. right. apply in_ids in Hi. destruct Hi as (d & Hd & Hi).
  rewrite Forall_forall in IH, H2. apply in_ids. exists (prune d). split; [|apply IH; auto].
  apply in_map. apply filter_In. split; [exact Hd|]. destruct (sc_unused d) eqn:U; [|reflexivity].
  specialize (H2 d Hd). destruct d as [k0 f0 u0 v0 g0 c0]. apply neat_node in H2. cbn in U.
  destruct (proj1 H2 U) as [E ->]. rewrite ids_node, E in Hi. destruct (q f0); destruct Hi.
Qed.

Lemma ids_prunes : forall q l i, Forall neat l -> In i (ids q l) -> In i (ids q (map prune l)).
Proof.
  intros q l i H Hi. apply in_ids in Hi. destruct Hi as (s & Hs & Hi). rewrite Forall_forall in H.
  apply in_ids. exists (prune s). split; [apply in_map; exact Hs|apply ids_prune; auto].
Qed.

Lemma neat_close : forall lp t, neat t -> sc_unused t = false ->
  (lp = true \/ sc_vars t <> [] \/ sc_funs t = []) -> Forall neat (close_block lp t).
Proof.
  intros lp [k f u v g c] H U K. cbn [close_block sc_vars sc_funs] in *. destruct v as [|y v]; [destruct lp|]; auto.
  assert (G : g = []) by (destruct K as [K|[K|K]]; congruence). subst g.
  apply neat_node in H. constructor; [|apply H]. apply neat_node. split; auto.
Qed.

Lemma neat_orphans : forall s, neat s -> Forall neat (orphans s).
Proof.
  intros s. induction s as [k f u v g c IH] using sc_ind2. intros H. 
  pose proof H as H0. apply neat_node in H. destruct H as [_ H]. cbn [orphans].
  destruct k; try (constructor; [exact H0|constructor]).
  clear H0. induction c as [|d c IHc]; [constructor|]. inversion IH; inversion H; subst.
  apply Forall_app. split; auto.
Qed.

Lemma ids_orphans : forall s i, tree_ok s -> sc_fid s = 0 -> is_block s = true ->
  In i (ids nz [s]) -> In i (ids nz (orphans s)).
Proof.
  intros s. induction s as [k f u v g c IH] using sc_ind2. intros i T F B Hi.
  cbn in F. subst f. cbn [is_block sc_kind] in B. destruct k; try discriminate.
  rewrite ids_node in Hi. cbn [nz Nat.eqb negb app] in Hi. cbn [orphans].
  apply tree_ok_eq in T. destruct T as (_ & _ & T). clear v g u B.
  induction c as [|d c IHc]; [exact Hi|]. inversion IH; inversion T; subst.
  rewrite ids_cons, in_app_iff in Hi. rewrite ids_app, in_app_iff. destruct Hi as [Hi|Hi]; [left|right; auto].
  unfold kid_ok in H5. destruct (is_block d) eqn:Bd.
  - destruct H5 as (F & Td & _). apply H1; auto.
  - destruct d as [k0 f0 u0 v0 g0 c0]. cbn [is_block sc_kind] in Bd. destruct k0; try discriminate; exact Hi.
Qed.

Lemma ids_drop : forall m i, tree_ok m -> sc_fid m = 0 -> In i (ids nz [m]) ->
  In i (ids nz (fst (drop_blocks m) :: snd (drop_blocks m))).
Proof.
  intros [k f u v g c] i T F Hi. cbn in F. subst f. cbn [drop_blocks fst snd].
  rewrite ids_cons, in_app_iff, ids_node. rewrite ids_node in Hi.
  cbn [nz Nat.eqb negb app] in *. apply tree_ok_eq in T. destruct T as (_ & _ & T).
  apply in_ids in Hi. destruct Hi as (d & Hd & Hi). rewrite Forall_forall in T.
  destruct (is_block d) eqn:B.
  - right. specialize (T d Hd). unfold kid_ok in T. rewrite B in T. destruct T as (Fd & Td & _).
    apply in_ids in Hi. destruct Hi as (d' & [<-|[]] & Hi).
    pose proof (ids_orphans d i Td Fd B Hi) as Q. apply in_ids in Q. destruct Q as (o & Ho & Q).
    apply in_ids. exists o. split; [|exact Q]. apply in_flat_map. exists d. split; [|exact Ho].
    apply filter_In. auto.
  - left. apply in_ids. exists d. split; [|exact Hi]. apply filter_In. rewrite B. auto.
Qed.

Lemma neat_drop : forall m, neat m -> sc_unused m = false ->
  neat (fst (drop_blocks m)) /\ Forall neat (snd (drop_blocks m)).
Proof.
  intros [k f u v g c] H U. cbn in U. subst u. cbn [drop_blocks fst snd]. apply neat_node in H.
  destruct H as [_ H]. rewrite Forall_forall in H. split.
  - apply neat_node. split; [discriminate|]. apply Forall_forall. intros d Hd. apply filter_In in Hd. apply H. apply Hd.
  - apply Forall_flat. apply Forall_forall. intros d Hd. apply filter_In in Hd. apply neat_orphans. apply H. apply Hd.
Qed.

(* ------------------------------------------------------------------ *)
(** * The functions that code loads *)

Definition loads (l : list instr) (d : nat) : Prop := In (LoadFunction d) l.

Lemma rewrite_loads : forall t l l' d, rewrite_code t l = Some l' -> loads l' d -> loads l d.
Proof.
  intros t. induction l as [|i l IH]; intros l' d E H; cbn [rewrite_code] in E.
  - inversion E; subst. exact H.
  - destruct (rewrite1 t i) as [i'|] eqn:Ei; [|discriminate]. destruct (rewrite_code t l) as [r|]; [|discriminate].
    inversion E; subst. destruct H as [H|H]; [left|right; eapply IH; eauto]. subst i'.
    destruct i; cbn [rewrite1] in Ei; try congruence; try (destruct (look t n); discriminate).
    + destruct a as [n|n]; [destruct (look t n); discriminate|congruence].
    + destruct a as [n|n]; [|congruence]. destruct (look t n); [|discriminate].
      destruct b as [n'|n']; destruct (look t n'); discriminate.
Qed.

Lemma finalize_loads : forall f s fn s' d, finalize f s = POk fn s' -> loads (fn_code fn) d -> loads (fs_code f) d.
Proof.
  intros f s fn s' d E H. unfold finalize in E. destruct (sorted_from _ _).
  - inversion E; subst. exact H.
  - destruct (Nat.eqb _ _); [|discriminate]. destruct (fill _ _ _) as [t|]; [|discriminate].
    destruct (rewrite_code t (fs_code f)) as [code|] eqn:Ec; [|discriminate].
    destruct (gather _ _ _) as [[lo m]|]; [|discriminate]. inversion E; subst. eapply rewrite_loads; eauto.
Qed.

Lemma finalize_same : forall f s fn s', finalize f s = POk fn s' -> same_but_slots s s'.
Proof.
  intros f s fn s' E. unfold finalize in E. destruct (sorted_from _ _).
  - inversion E; subst. left. reflexivity.
  - destruct (Nat.eqb _ _); [|discriminate]. destruct (fill _ _ _) as [t|]; [|discriminate].
    destruct (rewrite_code t (fs_code f)) as [code|]; [|discriminate].
    destruct (gather _ _ _) as [[lo m]|]; [|discriminate]. inversion E; subst. right. eauto.
Qed.

Definition all_sc (s : cst) : list sc := c_stack s ++ c_orphans s.
Definition quse (f : fstate) : nat -> bool := if Nat.eqb (fs_fid f) 0 then any else nz.

Record L (s : cst) : Prop := mkL {
  l_neat : Forall neat (all_sc s);
  l_used : Forall (fun t => sc_unused t = false) (c_stack s);
  l_syms : forall t y p q, In t (c_stack s) -> In y (syms t) -> y_kind y = KFun p q -> q <> 0;
  l_fids : Forall (fun f => fs_fid f <> 0) (removelast (c_fs s));
  l_done : forall i fn d, In (i, Some fn) (c_funs s) -> loads (fn_code fn) d -> In d (ids nz (all_sc s));
  l_open : forall f d, In f (c_fs s) -> loads (fs_code f) d -> In d (ids (quse f) (all_sc s)) }.

(** Steps that only add symbols and code. *)
Definition more (s s' : cst) : Prop :=
  forall q i, In i (ids q (all_sc s)) -> In i (ids q (all_sc s')).

Lemma L_grow : forall s s',
  L s -> more s s' ->
  Forall neat (all_sc s') -> Forall (fun t => sc_unused t = false) (c_stack s') ->
  (forall t y p q, In t (c_stack s') -> In y (syms t) -> y_kind y = KFun p q -> q <> 0) ->
  Forall (fun f => fs_fid f <> 0) (removelast (c_fs s')) ->
  (forall i fn d, In (i, Some fn) (c_funs s') -> loads (fn_code fn) d ->
     In (i, Some fn) (c_funs s) \/ In d (ids nz (all_sc s'))) ->
  (forall f d, In f (c_fs s') -> loads (fs_code f) d ->
     (exists f0, In f0 (c_fs s) /\ fs_fid f0 = fs_fid f /\ loads (fs_code f0) d) \/
     In d (ids (quse f) (all_sc s'))) ->
  L s'.
Proof.
  intros s s' H M N U S F D O. constructor; auto.
  - intros i fn d Hi Hd. destruct (D i fn d Hi Hd) as [Q|Q]; [|exact Q]. apply M. eapply l_done; eauto.
  - intros f d Hf Hd. destruct (O f d Hf Hd) as [(f0 & Q1 & Q2 & Q3)|Q]; [|exact Q].
    apply M. unfold quse. rewrite <- Q2. eapply l_open; eauto.
Qed.

Lemma neat_add : forall t y, sc_unused t = false -> neat t -> neat (add_var y t) /\ neat (add_fun y t).
Proof.
  intros [k f u v g c] y U H. cbn in U. subst u. apply neat_node in H. destruct H as [_ H].
  split; apply neat_node; split; try discriminate; exact H.
Qed.

Lemma L_push : forall x s, L s -> L (push_var x s).
Proof.
  intros x s H. unfold push_var. destruct (c_stack s) as [|t r] eqn:Es; [exact H|].
  destruct (c_fs s) as [|f fs] eqn:Ef; [exact H|].
  pose proof (l_neat _ H) as N. pose proof (l_used _ H) as U. unfold all_sc in N. rewrite Es in N, U.
  inversion N as [|? ? N1 N2]. inversion U as [|? ? U1 U2]. subst.
  apply (L_grow s); auto; unfold all_sc; cbn [c_stack c_orphans c_fs c_funs].
  - intros q i Hi. unfold all_sc in *. rewrite Es in Hi. cbn [c_stack c_orphans app] in *.
    rewrite ids_cons, in_app_iff in *. destruct Hi as [Hi|Hi]; [left|right; exact Hi]. apply ids_add. exact Hi.
  - constructor; [apply neat_add; assumption|exact N2].
  - constructor; [|exact U2]. destruct t; exact U1.
  - intros t0 y p q [<-|Ht] Hy K; [|eapply l_syms; eauto; rewrite Es; right; exact Ht].
    destruct t as [k0 f0 u0 v0 g0 c0]. unfold syms in Hy. cbn [add_var sc_vars sc_funs] in Hy.
    rewrite <- app_assoc in Hy. apply in_app_or in Hy. destruct Hy as [Hy|[<-|Hy]]; [|discriminate|];
      (eapply l_syms; [exact H|rewrite Es; left; reflexivity| |exact K]; unfold syms; cbn; apply in_or_app; auto).
  - pose proof (l_fids _ H) as Q. rewrite Ef in Q. destruct fs as [|f' fs]; [constructor|].
    cbn [removelast] in *. inversion Q; subst. constructor; assumption.
  - intros f0 d [<-|Hf] Hd; left; [exists f|exists f0]; rewrite Ef; cbn [fs_fid fs_code] in *; auto using in_eq, in_cons.
Qed.

Lemma down_in : forall x np st y, down x np st = Some y ->
  exists t r s, st = t :: r /\ In s st /\ In y (syms s) /\ sc_fid s = sc_fid t.
Proof.
  intros x np. induction st as [|t r IH]; intros y H; [discriminate|]. cbn [down] in H.
  destruct (here x np t) as [y0|] eqn:E.
  - inversion H; subst. exists t, r, t. repeat split; auto; [left; reflexivity|].
    unfold here in E. unfold syms. destruct (find _ (sc_vars t)) eqn:F.
    + inversion E; subst. apply find_some in F. apply in_or_app. left. apply F.
    + apply find_some in E. apply in_or_app. right. apply E.
  - destruct r as [|p r]; [discriminate|]. destruct (Nat.eqb (sc_fid p) (sc_fid t)) eqn:B; [|discriminate].
    destruct (IH y H) as (t' & r' & s & E1 & A & C & D). inversion E1; subst.
    exists t, (t' :: r'), s. repeat split; auto; [right; exact A|]. apply Nat.eqb_eq in B. congruence.
Qed.

Lemma sym_ids : forall q s st y, In s st -> In y (syms s) -> q (sc_fid s) = true -> In (y_id y) (ids q st).
Proof.
  intros q s st y Hs Hy Hq. apply in_ids. exists s. split; [exact Hs|]. destruct s as [k f u v g c].
  rewrite ids_node. cbn in Hq. rewrite Hq. apply in_or_app. left. apply in_map. exact Hy.
Qed.

Section Live.
Variable ty : name -> bool.

Lemma L_var : forall x s, L s -> L (fst (register_var ty x s)).
Proof.
  intros x s H. unfold register_var. destruct (ty x); [exact H|]. destruct (up_down _ _ _); [exact H|].
  apply L_push. exact H.
Qed.
Lemma L_args : forall ps s, L s -> L (fst (register_args ty ps s)).
Proof.
  induction ps as [|x ps IH]; intros s H; [exact H|]. cbn [register_args].
  assert (Q : L (fst (register_arg ty x s))).
  { unfold register_arg. destruct (ty x); [exact H|]. destruct (c_stack s); [exact H|].
    destruct (here _ _ _); [exact H|]. apply L_push. exact H. }
  destruct (register_arg ty x s) as [s' [|]]; cbn [fst] in *; auto.
Qed.

(** The top scope belongs to the function being compiled. *)
Lemma R_top_fid : forall s z t r, R s z -> c_stack s = t :: r ->
  exists f fs, c_fs s = f :: fs /\ sc_fid t = fs_fid f.
Proof.
  intros s z t r H E. destruct (Rst_open _ _ _ _ _ _ (R_st _ _ H))
    as (k & t0 & g & st' & f & fs' & e & es' & E1 & E2 & _ & He & _).
  rewrite E in E1. inversion E1; subst. exists f, fs'. split; [exact E2|].
  pose proof (v_fid _ _ _ _ _ _ _ He) as V. inversion V; subst. assumption.
Qed.

Lemma load_live : forall x s z i d, R s z -> load_sym ty x s = Some i -> i = LoadFunction d ->
  exists f fs, c_fs s = f :: fs /\ In d (ids (quse f) (all_sc s)).
Proof.
  intros x s z i d HR E ->. unfold load_sym in E. destruct (ty x); [discriminate|].
  destruct (down x None (c_stack s)) as [y|] eqn:D.
  - destruct (down_in _ _ _ _ D) as (t & r & s0 & E1 & I & Y & F).
    destruct (R_top_fid s z t r HR E1) as (f & fs & Ef & Ft). exists f, fs. split; [exact Ef|].
    destruct (y_kind y); inversion E; subst. unfold all_sc. rewrite ids_app. apply in_or_app. left.
    eapply sym_ids; eauto. rewrite F, Ft. unfold quse, any, nz. destruct (Nat.eqb (fs_fid f) 0) eqn:B; [reflexivity|]. rewrite B. reflexivity.
  - destruct (c_fs s) as [|f [|g q]]; discriminate.
Qed.

Lemma L_emit : forall s l, L s ->
  (forall d, loads l d -> exists f fs, c_fs s = f :: fs /\ In d (ids (quse f) (all_sc s))) -> L (emit l s).
Proof.
  intros s l H Q. unfold emit. destruct (c_fs s) as [|f fs] eqn:Ef; [exact H|].
  constructor; unfold all_sc; cbn [c_stack c_orphans c_fs c_funs].
  - apply H.
  - apply H.
  - apply H.
  - pose proof (l_fids _ H) as F. rewrite Ef in F. destruct fs; [constructor|]. cbn [removelast] in *.
    inversion F; subst. constructor; assumption.
  - apply H.
  - intros f0 d [<-|Hf] Hd.
    + unfold loads in Hd. cbn [fs_code] in Hd. apply in_app_or in Hd. destruct Hd as [Hd|Hd].
      * change (quse _) with (quse f). apply (l_open _ H); [rewrite Ef; left; reflexivity|exact Hd].
      * destruct (Q d Hd) as (f1 & fs1 & E1 & I). inversion E1; subst. exact I.
    + apply (l_open _ H); [rewrite Ef; right; exact Hf|exact Hd].
Qed.

Lemma in_set_func : forall l i v j w, In (j, w) (set_func l i v) -> (j = i /\ w = v) \/ In (j, w) l.
Proof.
  intros l i v j w [H|H]; [left; inversion H; auto|right]. apply filter_In in H. apply H.
Qed.

Lemma L_enter : forall k fid th ps s, L s -> fid <> 0 -> c_fs s <> [] -> L (fst (enter ty k fid th ps s)).
Proof.
  intros k fid th ps s H F Nf. unfold enter.
  match goal with |- context [register_args ty ps ?x] => set (s1 := x) end.
  assert (H1 : L s1).
  { unfold s1. apply (L_grow s); auto; unfold all_sc; cbn [c_stack c_orphans c_fs c_funs].
    - intros q i Hi. unfold all_sc in *. cbn [c_stack c_orphans app]. rewrite ids_cons. apply in_or_app. right. exact Hi.
    - constructor; [|apply H]. apply neat_node. split; [discriminate|constructor].
    - constructor; [reflexivity|apply H].
    - intros t y p q [<-|Ht] Hy K; [destruct Hy|eapply l_syms; eauto].
    - destruct (c_fs s) eqn:Ef; [congruence|]. cbn [removelast]. constructor; [exact F|].
      pose proof (l_fids _ H) as Q. rewrite Ef in Q. exact Q.
    - intros f d [<-|Hf] Hd; [destruct Hd|]. left. eauto. }
  pose proof (L_args ps s1 H1) as Q. destruct (register_args ty ps s1) as [s2 [|]]; exact Q.
Qed.

Lemma L_new_fun : forall s x np t r, L s -> c_stack s = t :: r -> 0 < c_nfun s ->
  L (mkcst (add_fun (mksym (c_next s) x (KFun np (c_nfun s))) t :: r) (c_fs s)
       (S (c_next s)) (S (c_nfun s)) (set_func (c_funs s) (c_nfun s) None) (c_orphans s)).
Proof.
  intros s x np t r H Es P. pose proof (l_neat _ H) as N. pose proof (l_used _ H) as U. unfold all_sc in N. rewrite Es in N, U.
  inversion N as [|? ? N1 N2]. inversion U as [|? ? U1 U2]. subst.
  apply (L_grow s); auto; unfold all_sc; cbn [c_stack c_orphans c_fs c_funs].
  - intros q i Hi. unfold all_sc in *. rewrite Es in Hi. cbn [c_stack c_orphans app] in *.
    rewrite ids_cons, in_app_iff in *. destruct Hi as [Hi|Hi]; [left|right; exact Hi]. apply ids_add. exact Hi.
  - constructor; [apply neat_add; assumption|exact N2].
  - constructor; [|exact U2]. destruct t; exact U1.
  - intros t0 y p q [<-|Ht] Hy K; [|eapply l_syms; eauto; rewrite Es; right; exact Ht].
    destruct t as [k0 f0 u0 v0 g0 c0]. unfold syms in Hy. cbn [add_fun sc_vars sc_funs] in Hy.
    rewrite app_assoc in Hy. apply in_app_or in Hy. destruct Hy as [Hy|[<-|[]]].
    + eapply l_syms; [exact H|rewrite Es; left; reflexivity|exact Hy|exact K].
    + cbn in K. inversion K. lia.
  - apply H.
  - intros i fn d Hi Hd. apply in_set_func in Hi. destruct Hi as [[_ Hi]|Hi]; [discriminate|auto].
  - intros f d Hf Hd. left. eauto.
Qed.

Lemma L_fun : forall x np s z, L s -> R s z ->
  L (fst (register_fun ty x np s)) /\
  forall fid, snd (register_fun ty x np s) = Some fid -> fid <> 0.
Proof.
  intros x np s z H HR. unfold register_fun. destruct (c_stack s) as [|t r] eqn:Es; [split; [exact H|discriminate]|].
  destruct (down x None (t :: r)) as [y|] eqn:D.
  - destruct (y_kind y) as [n|m f] eqn:K; [split; [exact H|discriminate]|].
    destruct (existsb _ _); [|split; [exact H|discriminate]]. cbn [fst snd].
    destruct (down_in _ _ _ _ D) as (t1 & r1 & s0 & E1 & I & Y & _).
    assert (F : f <> 0).
    { eapply l_syms; [exact H| |exact Y|exact K]. rewrite Es. exact I. }
    split; [|intros fid E; inversion E; subst; exact F].
    pose proof (l_neat _ H) as N. pose proof (l_used _ H) as U. unfold all_sc in N. rewrite Es in N, U.
    inversion N as [|? ? N1 N2]. inversion U as [|? ? U1 U2]. subst.
    apply (L_grow s); auto; unfold all_sc; cbn [c_stack c_orphans c_fs c_funs].
    + intros q i Hi. unfold all_sc in *. rewrite Es in Hi. cbn [c_stack c_orphans app] in *.
      rewrite ids_cons, ids_params, <- ids_cons. exact Hi.
    + constructor; [|exact N2]. destruct t as [k0 f0 u0 v0 g0 c0]. cbn in U1. subst u0. apply neat_node in N1.
      apply neat_node. split; [discriminate|apply N1].
    + constructor; [|exact U2]. destruct t; exact U1.
    + intros t0 y0 p q [<-|Ht] Hy K0; [|eapply l_syms; eauto; rewrite Es; right; exact Ht].
      destruct t as [k0 f0 u0 v0 g0 c0]. unfold syms in Hy. cbn [map_funs sc_vars sc_funs] in Hy.
      apply in_app_or in Hy. destruct Hy as [Hy|Hy].
      * eapply l_syms; [exact H|rewrite Es; left; reflexivity| |exact K0]. unfold syms. apply in_or_app. left. exact Hy.
      * apply in_map_iff in Hy. destruct Hy as (y1 & <- & Hy).
        assert (Q : exists p1, y_kind y1 = KFun p1 q).
        { unfold set_params in K0. destruct (Nat.eqb _ _); [|eauto]. destruct (y_kind y1) eqn:K1; cbn in K0; [congruence|].
          inversion K0; subst. eauto. }
        destruct Q as (p1 & K1). eapply l_syms; [exact H|rewrite Es; left; reflexivity| |exact K1].
        unfold syms. apply in_or_app. right. exact Hy.
    + apply H.
    + intros i fn d Hi Hd. apply in_set_func in Hi. destruct Hi as [[_ Hi]|Hi]; [discriminate|auto].
    + intros f0 d Hf Hd. left. eauto.
  - destruct (ty x); [split; [exact H|discriminate]|]. destruct (up_down _ _ _); [split; [exact H|discriminate]|].
    cbn [fst snd]. pose proof (R_pos s z HR) as P. split.
    + apply L_new_fun; assumption.
    + intros fid E. inversion E; subst. lia.
Qed.

Lemma register_fun_fs : forall x np s, c_fs (fst (register_fun ty x np s)) = c_fs s.
Proof.
  intros x np s. unfold register_fun. destruct (c_stack s); [reflexivity|].
  destruct (down _ _ _) as [y|]; [destruct (y_kind y); [reflexivity|destruct (existsb _ _); reflexivity]|].
  destruct (ty x); [reflexivity|]. destruct (up_down _ _ _); reflexivity.
Qed.

Lemma keep_step : forall o z, z_keep (fst (spec_step ty o z)) = true -> z_keep z = true.
Proof.
  intros o z H.
  assert (V : forall x z, z_keep (put_var x z) = z_keep z).
  { intros x z0. unfold put_var. destruct (z_env z0); reflexivity. }
  assert (U : forall l z, z_keep (use l z) = z_keep z).
  { intros l z0. unfold use. destruct (z_env z0); reflexivity. }
  assert (A : forall ps z, z_keep (fst (spec_args ty ps z)) = z_keep z).
  { induction ps as [|x ps IH]; intros z0; [reflexivity|]. cbn [spec_args]. destruct (z_env z0); [reflexivity|].
    destruct (ty x || _); [reflexivity|]. rewrite IH. apply V. }
  assert (E : forall f b th ps z, z_keep (fst (spec_enter ty f b th ps z)) = z_keep z).
  { intros f b th ps z0. unfold spec_enter. specialize (A ps (set_env (mkse f b [[]] [] [] th [] :: z_env z0) z0)).
    destruct (spec_args ty ps _) as [z' [|]]; exact A. }
  assert (F : forall x np z, z_keep (fst (spec_fun ty x np z)) = z_keep z).
  { intros x np z0. unfold spec_fun. destruct (z_env z0); [reflexivity|]. destruct (visible _ _ _) as [i|].
    - destruct (nth_error _ _) as [[n [[m q]|]]|]; try reflexivity. destruct (existsb _ _); reflexivity.
    - destruct (ty x || _); reflexivity. }
  unfold spec_step in H. destruct (z_env z) as [|e es] eqn:Ez; [exact H|].
  assert (SV : forall x, z_keep (fst (spec_var ty x z)) = z_keep z).
  { intros x. unfold spec_var. rewrite Ez. destruct (ty x || _); [reflexivity|apply V]. }
  destruct o as [x|x|x|a a'| |lp|x ps|ps| |].
  - rewrite SV in H. exact H.
  - specialize (SV x). destruct (spec_var ty x z) as [z' [|]]; cbn [fst and_plain z_keep] in *; rewrite ?U in H; congruence.
  - destruct (meaning ty x z); cbn [fst] in H; rewrite ?U in H; exact H.
  - destruct (meaning_rand ty a z), (meaning_rand ty a' z); cbn [fst and_plain z_keep] in H; rewrite ?U in H; exact H.
  - destruct (Nat.ltb (depth e) 10); exact H.
  - destruct (n_blocks e) as [|b [|b' bs]]; try exact H. cbn [fst and_keep set_env z_keep] in H.
    apply andb_true_iff in H. apply H.
  - specialize (F x (length ps) z). destruct (spec_fun ty x (length ps) z) as [z' [q|]]; cbn [fst] in *; [|congruence].
    rewrite E in H. congruence.
  - rewrite E in H. exact H.
  - destruct es as [|e2 es]; [exact H|]. destruct (n_blocks e) as [|b [|b' bs]]; exact H.
  - exact H.
Qed.

Lemma keep_run : forall l z, z_keep (fst (spec_run ty l z)) = true -> z_keep z = true.
Proof.
  induction l as [|o l IH]; intros z H; [exact H|]. cbn [spec_run] in H.
  pose proof (keep_step o z) as K. destruct (spec_step ty o z) as [z' [|]]; cbn [fst] in *; auto.
Qed.

Lemma bin_loads : forall i j d, loads (bin_code i j) d -> i = LoadFunction d \/ j = LoadFunction d.
Proof.
  intros i j d H. unfold bin_code, loads in H.
  destruct (as_register i), (as_register j); cbn in H; intuition congruence.
Qed.

Lemma rand_live : forall a s z i d, R s z -> load_rand ty a s = Some i -> i = LoadFunction d ->
  exists f fs, c_fs s = f :: fs /\ In d (ids (quse f) (all_sc s)).
Proof.
  intros [x|k] s z i d HR E Ei; [eapply load_live; eauto|]. cbn [load_rand] in E.
  destruct (c_fs s) as [|f fs]; [discriminate|]. destruct (fs_this f); congruence.
Qed.

Theorem L_step : forall o s z, R s z -> L s -> z_keep (fst (spec_step ty o z)) = true ->
  snd (step ty o s) <> Undef -> L (fst (step ty o s)).
Proof.
  intros o s z HR H K NU. destruct o as [x|x|x|a b| |lp|x ps|ps| |]; cbn [step] in *.
  - apply L_var. exact H.
  - pose proof (L_var x s H) as Q. destruct (register_var ty x s) as [s' [|]]; [|exact Q]. cbn [fst] in Q.
    destruct (c_stack s); [exact Q|]. destruct (c_fs s); [exact Q|]. cbn [fst].
    apply L_emit; [exact Q|]. intros d [Hd|[]]. destruct (sc_kind s0); discriminate.
  - destruct (load_sym ty x s) as [i|] eqn:E; [|exact H]. cbn [fst]. apply L_emit; [exact H|].
    intros d [Hd|[]]. eapply load_live; eauto.
  - destruct (load_rand ty a s) as [i|] eqn:E1; [|exact H]. destruct (load_rand ty b s) as [j|] eqn:E2; [|exact H].
    cbn [fst]. apply L_emit; [exact H|]. intros d Hd. apply bin_loads in Hd.
    destruct Hd as [Hd|Hd]; [apply (rand_live a s z i d)|apply (rand_live b s z j d)]; assumption.
  - destruct (c_stack s) as [|t r] eqn:Es; [exact H|]. destruct (Nat.leb _ _); [exact H|]. cbn [fst].
    apply (L_grow s); auto; unfold all_sc, set_stack; cbn [c_stack c_orphans c_fs c_funs]; rewrite <- ?Es.
    + intros q i Hi. unfold all_sc in *. cbn [c_stack c_orphans app]. rewrite ids_cons. apply in_or_app. right. exact Hi.
    + constructor; [|apply H]. apply neat_node. split; [discriminate|constructor].
    + constructor; [reflexivity|apply H].
    + intros t0 y p q [<-|Ht] Hy Ky; [destruct Hy|eapply l_syms; eauto].
    + apply H.
    + intros f d Hf Hd. left. eauto.
  - destruct (c_stack s) as [|t [|p r]] eqn:Es; try exact H. destruct (is_block t) eqn:B; [|exact H]. cbn [fst] in *.
    pose proof (l_neat _ H) as N. pose proof (l_used _ H) as U. unfold all_sc in N. rewrite Es in N, U.
    inversion N as [|? ? N1 N2]. inversion N2 as [|? ? N3 N4]. inversion U as [|? ? U1 U2]. inversion U2 as [|? ? U3 U4]. subst.
    assert (G : lp = true \/ sc_vars t <> [] \/ sc_funs t = []).
    { destruct (Rst_open _ _ _ _ _ _ (R_st _ _ HR))
        as (k & t0 & g & st' & f & fs' & e & es' & E1 & E2 & E3 & He & _).
      rewrite Es in E1. inversion E1; subst. pose proof (v_blocks _ _ _ _ _ _ _ He) as VB.
      inversion VB as [|? b ? bs Rb _ Eb1 Eb2]. subst. unfold spec_step in K. rewrite E3, <- Eb2 in K.
      assert (Hbs : exists b' bs', bs = b' :: bs').
      { destruct (v_shape _ _ _ _ _ _ _ He) as (us & u & Eu & _ & Ku).
        destruct us as [|u0 us]; inversion Eu; subst.
        - exfalso. pose proof (v_kind _ _ _ _ _ _ _ He) as VK. unfold is_block in B. destruct (sc_kind u); congruence.
        - inversion VB; subst. destruct bs; [|eauto]. exfalso.
          match goal with Q : Forall2 _ (us ++ [u]) [] |- _ => inversion Q; destruct us; discriminate end. }
      destruct Hbs as (b' & bs' & ->). cbn [fst and_keep z_keep set_env] in K.
      apply andb_true_iff in K. destruct K as [_ K]. apply orb_true_iff in K. destruct K as [K|K].
      - apply orb_true_iff in K. destruct K as [K|K]; [left; exact K|]. right. left. intros Ev.
        apply existsb_exists in K. destruct K as (i & Hi & Vi).
        assert (Q : In i (map y_id (sc_vars t0))) by (rewrite (r_vars _ _ _ Rb); apply filter_In; auto).
        rewrite Ev in Q. destruct Q.
      - right. right. destruct b; [|discriminate]. pose proof (r_funs _ _ _ Rb) as Q. cbn in Q.
        destruct (sc_funs t0); [reflexivity|discriminate]. }
    apply (L_grow s); auto; unfold all_sc, set_stack; cbn [c_stack c_orphans c_fs c_funs].
    + intros q i Hi. unfold all_sc in *. rewrite Es in Hi. cbn [c_stack c_orphans app] in *.
      rewrite ids_cons, in_app_iff, ids_kids. rewrite ids_cons, (ids_cons q p), !in_app_iff in Hi.
      destruct Hi as [Hi|[Hi|Hi]]; [|tauto|tauto]. left. right. apply ids_close. exact Hi.
    + constructor; [|exact N4]. apply neat_used; [destruct p; exact U3|].
      destruct p as [k0 f0 u0 v0 g0 c0]. cbn [add_kids sc_kids]. apply Forall_app. split; [|apply neat_close; assumption].
      apply (neat_kids _ N3).
    + constructor; [destruct p; exact U3|exact U4].
    + intros t0 y p0 q [<-|Ht] Hy Ky.
      * eapply l_syms; [exact H|rewrite Es; right; left; reflexivity| |exact Ky]. destruct p; exact Hy.
      * eapply l_syms; [exact H|rewrite Es; right; right; exact Ht|exact Hy|exact Ky].
    + apply H.
    + intros f d Hf Hd. left. eauto.
  - destruct (L_fun x (length ps) s z H HR) as [Q1 Q2]. pose proof (register_fun_fs x (length ps) s) as Q3.
    destruct (register_fun ty x (length ps) s) as [s' [fid|]]; cbn [fst snd] in *; [|exact Q1].
    assert (Q : L (fst (enter ty SFunc fid (match c_fs s with g :: _ => fs_this g | [] => false end) ps s'))).
    { apply L_enter; auto. rewrite Q3. destruct (R_st _ _ HR); discriminate. }
    exact Q.
  - pose proof (R_pos s z HR) as P. unfold ok. cbn [fst].
    apply L_enter; [|lia|cbn; destruct (R_st _ _ HR); discriminate].
    apply (L_grow s); auto; unfold all_sc; cbn [c_stack c_orphans c_fs c_funs]; try apply H.
    + intros q i Hi. exact Hi.
    + intros i fn d Hi Hd. apply in_set_func in Hi. destruct Hi as [[_ Hi]|Hi]; [discriminate|auto].
    + intros f d Hf Hd. left. eauto.
  - destruct (c_stack s) as [|t [|p r]] eqn:Es; try exact H. destruct (c_fs s) as [|f [|g q0]] eqn:Ef; try exact H.
    assert (D : forall fn t', finalize f t = POk fn t' ->
      L (mkcst (add_kids [t'] p :: r) (g :: q0) (c_next s) (c_nfun s)
          (set_func (c_funs s) (fs_fid f) (Some fn)) (c_orphans s))).
    { intros fn t' E. pose proof (l_neat _ H) as N. pose proof (l_used _ H) as U. unfold all_sc in N. rewrite Es in N, U.
      inversion N as [|? ? N1 N2]. inversion N2 as [|? ? N3 N4]. inversion U as [|? ? U1 U2]. inversion U2 as [|? ? U3 U4]. subst.
      pose proof (l_fids _ H) as FI. rewrite Ef in FI. cbn [removelast] in FI. inversion FI as [|? ? FI1 FI2]. subst.
      pose proof (finalize_same _ _ _ _ E) as SB.
      assert (M : more s (mkcst (add_kids [t'] p :: r) (g :: q0) (c_next s) (c_nfun s)
          (set_func (c_funs s) (fs_fid f) (Some fn)) (c_orphans s))).
      { intros q i Hi. unfold all_sc in *. rewrite Es in Hi. cbn [c_stack c_orphans app] in *.
        rewrite ids_cons, in_app_iff, ids_kids, (ids_same q t t' SB). rewrite ids_cons, (ids_cons q p), !in_app_iff in Hi. tauto. }
      apply (L_grow s); auto; unfold all_sc; cbn [c_stack c_orphans c_fs c_funs].
      - constructor; [|exact N4]. apply neat_used; [destruct p; exact U3|].
        destruct p as [k0 f0 u0 v0 g0 c0]. cbn [add_kids sc_kids]. apply Forall_app. split; [apply (neat_kids _ N3)|].
        constructor; [|constructor]. destruct SB as [->|(m & ->)]; [exact N1|apply neat_move; exact N1].
      - constructor; [destruct p; exact U3|exact U4].
      - intros t0 y p0 q [<-|Ht] Hy Ky.
        + eapply l_syms; [exact H|rewrite Es; right; left; reflexivity| |exact Ky]. destruct p; exact Hy.
        + eapply l_syms; [exact H|rewrite Es; right; right; exact Ht|exact Hy|exact Ky].
      - intros i fn0 d Hi Hd. apply in_set_func in Hi. destruct Hi as [[_ Hi]|Hi]; [right|auto].
        inversion Hi; subst. apply M. pose proof (finalize_loads _ _ _ _ d E Hd) as Q.
        pose proof (l_open _ H f d) as LO. rewrite Ef in LO. specialize (LO (or_introl eq_refl) Q).
        unfold quse in LO. apply Nat.eqb_neq in FI1. rewrite FI1 in LO. exact LO.
      - intros f0 d Hf Hd. left. exists f0. rewrite Ef. auto using in_cons. }
    destruct (sc_kind t); try exact H; (destruct (finalize f t) as [fn t'| |] eqn:E; [apply D; reflexivity|exact H|exact H]).
  - exact H.
Qed.

Lemma L_run : forall l s z, R s z -> L s -> z_keep (fst (spec_run ty l z)) = true ->
  snd (run ty l s) <> Undef -> L (fst (run ty l s)).
Proof.
  induction l as [|o l IH]; intros s z HR H K N; [exact H|]. cbn [run spec_run] in *.
  pose proof (step_refines ty o s z HR) as SR. pose proof (L_step o s z HR H) as LS.
  destruct (step ty o s) as [s' st]. destruct (spec_step ty o z) as [z' b]. cbn [fst snd] in *.
  destruct st.
  - destruct SR as [-> SR]. apply (IH s' z'); auto. apply LS; [|discriminate]. eapply keep_run. exact K.
  - destruct SR as [-> SR]. cbn [fst] in *. apply LS; [exact K|discriminate].
  - cbn in N. congruence.
Qed.

(* ------------------------------------------------------------------ *)
(** * Between scripts *)

Record LE (e : engine) : Prop := mkLE {
  x_neat : Forall neat (e_main e :: e_orphans e);
  x_done : forall i fn d, In (i, Some fn) (e_funs e) -> loads (fn_code fn) d -> In d (ids nz (e_main e :: e_orphans e));
  x_code : forall d, loads (e_code e) d -> In d (ids any (e_main e :: e_orphans e)) }.

Lemma L_begin : forall e w, RE e w -> LE e -> L (begin e).
Proof.
  intros e w H X. pose proof (E_top _ _ H) as HT. pose proof (x_neat _ X) as N. inversion N as [|? ? N1 N2]. subst.
  destruct (neat_drop _ N1 (t_used _ _ _ _ HT)) as [D1 D2].
  pose proof (ids_drop (e_main e)) as ID. unfold begin.
  destruct (drop_blocks (e_main e)) as [m o] eqn:E. cbn [fst snd] in *.
  assert (SM : sc_unused m = sc_unused (e_main e) /\ syms m = syms (e_main e)).
  { destruct (e_main e). cbn in E. inversion E. split; reflexivity. }
  destruct SM as [SM1 SM2]. destruct (prune_same m) as (_ & _ & P3 & P4 & P5).
  constructor; unfold all_sc; cbn [c_stack c_orphans c_fs c_funs app].
  - constructor; [apply neat_prune; exact D1|]. apply Forall_forall. intros d Hd. apply in_map_iff in Hd.
    destruct Hd as (d0 & <- & Hd). apply neat_prune. apply in_app_or in Hd. rewrite Forall_forall in D2, N2.
    destruct Hd; auto.
  - constructor; [|constructor]. rewrite P3, SM1. apply HT.
  - intros t y p q [<-|[]] Hy K. unfold syms in Hy. rewrite P4, P5 in Hy. fold (syms m) in Hy. rewrite SM2 in Hy.
    apply (t_fids _ _ _ _ HT y p q Hy K).
  - constructor.
  - intros i fn d Hi Hd. pose proof (x_done _ X i fn d Hi Hd) as Q.
    change (prune m :: map prune (o ++ e_orphans e)) with (map prune (m :: o ++ e_orphans e)).
    apply ids_prunes.
    + constructor; [exact D1|]. apply Forall_app. split; assumption.
    + rewrite ids_cons, in_app_iff in Q. destruct Q as [Q|Q].
      * apply ID in Q; [|apply H|apply HT]. rewrite ids_cons, in_app_iff in *. rewrite ids_app, in_app_iff. tauto.
      * rewrite ids_cons, in_app_iff, ids_app, in_app_iff. tauto.
  - intros f d [<-|[]] [].
Qed.

Lemma neat_collapse : forall r t, Forall neat (t :: r) -> Forall (fun s => sc_unused s = false) r ->
  neat (collapse t r).
Proof.
  induction r as [|p r IH]; intros t N U; [inversion N; assumption|]. cbn [collapse].
  inversion N as [|? ? N1 N2]. inversion N2 as [|? ? N3 N4]. inversion U as [|? ? U1 U2]. subst.
  apply IH; [|exact U2]. constructor; [|exact N4]. apply neat_used; [destruct p; exact U1|].
  destruct p as [k0 f0 u0 v0 g0 c0]. cbn [add_kids sc_kids]. apply Forall_app. split; [apply (neat_kids _ N3)|].
  constructor; [exact N1|constructor].
Qed.

Theorem LE_compile : forall l e w, RE e w -> LE e ->
  w_keep (fst (spec_compile ty l w)) = true -> snd (compile ty l e) <> CUndef ->
  LE (fst (compile ty l e)).
Proof.
  intros l e w H X K N. unfold compile, spec_compile in *.
  pose proof (L_run l (begin e) (spec_begin w) (begin_R _ _ H) (L_begin e w H X)) as LR.
  pose proof (run_refines ty l _ _ (begin_R _ _ H)) as RR.
  destruct (run ty l (begin e)) as [s st]. destruct (spec_run ty l (spec_begin w)) as [z b].
  cbn [fst snd w_keep] in *.
  assert (HL : st <> Undef -> L s) by (intros Q; apply LR; assumption). clear LR.
  assert (HRs : st <> Undef -> R s z) by (destruct st; [intros _; apply RR|intros _; apply RR|congruence]). clear RR.
  destruct st; [| |exfalso; apply N; reflexivity].
  all: destruct (c_stack s) as [|t r] eqn:Es; [exact X|].
  all: destruct (finalize (last (c_fs s) (mkfs 0 false [] [])) (prune (collapse t r))) as [fn m'| |] eqn:E; [|exact X|exact X].
  all: assert (HS : L s) by (apply HL; discriminate).
  all: pose proof (l_neat _ HS) as NN; unfold all_sc in NN; rewrite Es in NN; apply Forall_app in NN; destruct NN as [NN NO].
  all: pose proof (l_used _ HS) as UU; rewrite Es in UU; inversion UU as [|? ? UU1 UU2]; subst.
  all: pose proof (neat_collapse r t NN UU2) as NC.
  all: pose proof (finalize_same _ _ _ _ E) as SB.
  all: assert (M : forall q i, In i (ids q (all_sc s)) -> In i (ids q (m' :: map prune (c_orphans s)))).
  1,3: intros q i Hi; unfold all_sc in Hi; rewrite Es, ids_app, in_app_iff in Hi;
       rewrite ids_cons, in_app_iff, (ids_same q _ _ SB); destruct Hi as [Hi|Hi];
       [left; apply ids_prune; [exact NC|apply ids_collapse; exact Hi]|right; apply ids_prunes; assumption].
  all: constructor; cbn [fst e_main e_orphans e_funs e_code].
  1,4: constructor; [destruct SB as [->|(mm & ->)]; [|apply neat_move]; apply neat_prune; exact NC|];
       apply Forall_forall; intros d Hd; apply in_map_iff in Hd; destruct Hd as (d0 & <- & Hd);
       apply neat_prune; rewrite Forall_forall in NO; auto.
  1,3: intros i fn0 d Hi Hd; apply M; eapply l_done; eauto.
  all: intros d Hd; apply M; pose proof (finalize_loads _ _ _ _ d E Hd) as Q.
  all: assert (IL : In (last (c_fs s) (mkfs 0 false [] [])) (c_fs s)) by
    (assert (RS : R s z) by (apply HRs; discriminate); destruct (c_fs s) as [|f0 fs0] eqn:Ef;
       [pose proof (R_st _ _ RS) as S; rewrite Ef in S; inversion S|];
     clear; revert f0; induction fs0 as [|a fs0 IH]; intros f0; [left; reflexivity|];
     right; change (last (f0 :: a :: fs0) (mkfs 0 false [] [])) with (last (a :: fs0) (mkfs 0 false [] [])); apply IH).
  all: apply (ids_any (quse (last (c_fs s) (mkfs 0 false [] [])))); apply (l_open _ HS); assumption.
Qed.

Lemma keep_compile : forall l w, w_keep (fst (spec_compile ty l w)) = true -> w_keep w = true.
Proof.
  intros l w H. unfold spec_compile in H. pose proof (keep_run l (spec_begin w)) as Q.
  destruct (spec_run ty l (spec_begin w)) as [z b]. cbn in *. auto.
Qed.
Lemma keep_session : forall ls w, w_keep (fst (spec_session ty ls w)) = true -> w_keep w = true.
Proof.
  induction ls as [|l ls IH]; intros w H; [exact H|]. cbn [spec_session] in H.
  pose proof (keep_compile l w) as Q. destruct (spec_compile ty l w) as [w' b]. specialize (IH w').
  destruct (spec_session ty ls w') as [w'' bs]. cbn [fst] in *. auto.
Qed.

Theorem LE_session : forall ls e w, RE e w -> LE e ->
  w_keep (fst (spec_session ty ls w)) = true -> ~ In CUndef (snd (session ty ls e)) ->
  LE (fst (session ty ls e)).
Proof.
  induction ls as [|l ls IH]; intros e w H X K N; [exact X|]. cbn [session spec_session] in *.
  pose proof (LE_compile l e w H X) as LC. pose proof (compile_refines ty l e w H) as CR.
  destruct (compile ty l e) as [e' c]. destruct (spec_compile ty l w) as [w' b].
  specialize (IH e' w'). pose proof (keep_session ls w') as KS.
  destruct (session ty ls e') as [e'' cs]. destruct (spec_session ty ls w') as [w'' bs]. cbn [fst snd] in *.
  assert (NC : c <> CUndef) by (intros ->; apply N; left; reflexivity).
  assert (H' : RE e' w') by (destruct c; [apply CR|apply CR|congruence]).
  apply IH; auto. intros Q. apply N. right. exact Q.
Qed.

Lemma LE_fresh : LE fresh.
Proof.
  constructor; cbn; intros; try contradiction. constructor; [|constructor].
  apply neat_node. split; [discriminate|constructor].
Qed.

Lemma ids_live : forall q l i, In i (ids q l) -> In i (map y_id (flat_map syms (flat_map subscopes l))).
Proof.
  intros q l i H. unfold ids in H. apply in_flat_map in H. destruct H as (d & Hd & H).
  destruct (q (sc_fid d)); [|destruct H]. apply in_map_iff in H. destruct H as (y & <- & Hy).
  apply in_map. apply in_flat_map. eauto.
Qed.

Theorem symbols_live : forall ls,
  w_keep (fst (spec_session ty ls first_world)) = true -> ~ In CUndef (snd (session ty ls fresh)) ->
  let e := fst (session ty ls fresh) in
  (forall d, In (LoadFunction d) (e_code e) -> live e d) /\
  (forall i fn d, In (i, Some fn) (e_funs e) -> In (LoadFunction d) (fn_code fn) -> live e d).
Proof.
  intros ls K N e. pose proof (LE_session ls fresh first_world RE_fresh LE_fresh K N) as X. fold e in X. split.
  - intros d Hd. eapply ids_live. apply (x_code _ X d Hd).
  - intros i fn d Hi Hd. eapply ids_live. apply (x_done _ X i fn d Hi Hd).
Qed.
End Live.
