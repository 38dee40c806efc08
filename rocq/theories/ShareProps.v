(** Reference counting: objects are freed once, and only when nothing refers to them. *)
From Coq Require Import List ZArith Bool Lia Arith.
From Verif Require Import Base StringModel ListModel ListSpec ListProofs ShareModel ShareSpec ShareProofs.
Import ListNotations.
Local Open Scope nat_scope.

Lemma walk_same step stop : forall f1 f2 c l1 l2,
  walk_loop f1 step stop c = Some l1 -> walk_loop f2 step stop c = Some l2 -> l1 = l2.
Proof.
  induction f1 as [|f1 IH]; intros f2 c l1 l2 H1 H2; [discriminate|]. destruct f2 as [|f2]; [discriminate|].
  cbn [walk_loop] in *. destruct (step c) as [nx|]; [|discriminate]. destruct (nx =? stop); [congruence|].
  destruct (walk_loop f1 step stop nx) as [r1|] eqn:E1; [|discriminate].
  destruct (walk_loop f2 step stop nx) as [r2|] eqn:E2; [|discriminate].
  rewrite (IH _ _ _ _ E1 E2) in H1. congruence.
Qed.
Lemma waits_in h v pl pend dy L b o : Inv h v pl pend dy L ->
  (waits h b o <-> exists n i, In n (L b) /\ nodes h n = Some i /\ n_obj i = o).
Proof.
  intros I. pose proof (walk_forward_ok _ _ (i_ring _ _ _ _ _ _ I b)) as W. split.
  - intros (f & l & n & i & H1 & H2 & H3 & H4). exists n, i. repeat split; auto.
    enough (l = L b) by (subst; auto). unfold walk_forward in *. destruct (first (view h b)); [|congruence].
    eapply walk_same; eauto.
  - intros (n & i & H1 & H2 & H3). exists (S (length (L b))), (L b), n, i. auto.
Qed.

(** C48. Any legal history runs without touching freed memory, and every object somebody
    refers to is there. Partial: a share of an object without references must happen while it
    waits in its own block, and no object gets more than 65535 references. *)
Theorem C48_never_freed_while_referenced_partial : forall l, legal_history l empty no_ghost ->
  exists h, run l empty = Ok h /\
    forall o, 0 < references h (ghost_after l no_ghost) o -> exists ob, objs h o = Some ob.
Proof.
  intros l Hl. destruct (history_ok l empty no_ghost _ empty_ok Hl) as (h & L & E & I). exists h. split; auto.
  intros o Ho. rewrite references_tot in Ho. destruct (held_is_live _ _ _ _ _ _ _ I Ho) as (ob & _ & _ & E1 & _). eauto.
Qed.

(** Dropping a reference frees the object exactly if it was the last one; anything else freed
    with it was reached through it and is referred to by nobody. *)
Theorem C48_freed_with_last_reference_partial : forall l h o h', legal_history l empty no_ghost ->
  run l empty = Ok h -> legal (OUnref o None) h (ghost_after l no_ghost) -> step (OUnref o None) h = Ok h' ->
  (objs h' o = None <-> references h (ghost_after l no_ghost) o = 1) /\
  forall p ob, objs h p = Some ob -> objs h' p = None ->
    reach h o p /\ references h' (ghost_after (l ++ [OUnref o None]) no_ghost) p = 0.
Proof.
  intros l h o h' Hl Hr Hg Hs. destruct (history_ok l empty no_ghost _ empty_ok Hl) as (h0 & L & E & I).
  rewrite Hr in E. injection E as <-. set (g := ghost_after l no_ghost) in *. cbn [legal step] in *.
  pose proof (var_to_pend _ _ _ _ _ _ _ I Hg) as I1.
  destruct (unref_none_ok _ _ _ _ _ _ _ I1) as (h1 & D & I2 & (F1 & F2 & F3 & F4 & F5 & F6 & F7) & F8).
  rewrite D in Hs. injection Hs as ->.
  assert (T0 : tot h (vars g) [] [] o = S (tot h (upd1 (vars g) o (vars g o - 1)) [] [] o)).
  { unfold tot. rewrite upd1_eq. simpl. lia. }
  rewrite references_tot.
  destruct (held_is_live _ _ _ _ _ _ o I1) as (ob & n & i & Eo & Es & En & Er & Ec & Ek & _ & HL & Hb).
  { rewrite tot_cons. destruct (Nat.eq_dec o o); [lia|congruence]. }
  split; [split|].
  - intros Hn.
    destruct (Nat.eq_dec (tot h (upd1 (vars g) o (vars g o - 1)) [] [] o) 0) as [Hz|Hz]; [lia|]. exfalso.
    assert (Ek' : n_sh i = Z.of_nat (S (tot h (upd1 (vars g) o (vars g o - 1)) [] [] o))).
    { rewrite Ek, tot_cons. destruct (Nat.eq_dec o o); [lia|congruence]. }
    unfold unref, unref_with, get_obj, get_node in D. rewrite Eo in D. cbn [ofo rbind] in D.
    rewrite Ec, Es, En in D. cbn [ofo rbind] in D.
    destruct (Z.eqb_spec (n_sh i) 0); [lia|]. destruct (Z.eqb_spec (n_sh i - 1) 0); [lia|].
    injection D as <-. cbn in Hn. congruence.
  - intros H1. assert (Hz : tot h (upd1 (vars g) o (vars g o - 1)) [] [] o = 0) by lia.
    destruct (objs h' o) as [ob'|] eqn:E'; auto. exfalso.
    pose proof (F6 _ _ E') as E2. rewrite Eo in E2. injection E2 as <-.
    destruct (i_obj _ _ _ _ _ _ I2 _ _ _ E' Es) as (_ & i' & A1 & A2 & A3 & A4 & A5).
    eapply HL. apply A5; auto.
    pose proof (tot_sub h h' (upd1 (vars g) o (vars g o - 1)) [] [] o F1 F6) as Hle. lia.
  - intros p obp Hp Hp'. destruct (F7 p obp Hp Hp') as (r & [<-|[]] & R). split; auto.
    unfold ghost_after. rewrite fold_left_app. fold (ghost_after l no_ghost). fold g. cbn [fold_left gstep placed].
    rewrite references_tot. cbn [minus_var vars]. apply (i_nosp _ _ _ _ _ _ I2). auto.
Qed.

(** REFUTED without the condition on blocks: an object that loses its last reference in
    another block than its own and is then shared again leaves that block's list pointing at
    it; leaving the block is an internal error. *)
Definition lost_and_found : list op := [ONew false; OCreate 0 0; OShare 0; OUnref 0 (Some 1); OShare 0].
(** With another object waiting in the block of creation, that one is lost. *)
Definition lost_and_found2 : list op :=
  [ONew false; OCreate 0 0; OShare 0; ONew false; OCreate 1 0; OUnref 0 (Some 1); OShare 0].
Theorem C48_shared_again_elsewhere_refuted :
  observe lost_and_found (fun h => (references h (ghost_after lost_and_found no_ghost) 0, thrown (step (OSweep 1 []) h)))
    = Some (1, true) /\
  observe lost_and_found2 (fun h => (references h (ghost_after lost_and_found2 no_ghost) 1, count_of h 1, bfst h 0))
    = Some (0, Some 0%Z, None).
Proof. split; reflexivity. Qed.

Definition two_objects : list op :=
  [ONew false; OCreate 0 1; OShare 0; ONew false; OCreate 1 1; OShare 1; OPut 1 0; OUnref 0 None].
Example C48_case : legal_history two_objects empty no_ghost /\
  observe two_objects (fun h => references h (ghost_after two_objects no_ghost) 0) = Some 1 /\
  observe (two_objects ++ [OUnref 1 None]) (fun h => (objs h 0, objs h 1)) = Some (None, None).
Proof. split; [apply legal_check_ok; reflexivity|]. split; reflexivity. Qed.

(** C49. The count is the number of references. Partial: same conditions. *)
Theorem C49_count_is_references_partial : forall l, legal_history l empty no_ghost ->
  exists h, run l empty = Ok h /\
    forall o ob n, objs h o = Some ob -> o_sp ob = Some n ->
      exists i, nodes h n = Some i /\ n_obj i = o /\ n_sh i = Z.of_nat (references h (ghost_after l no_ghost) o).
Proof.
  intros l Hl. destruct (history_ok l empty no_ghost _ empty_ok Hl) as (h & L & E & I). exists h. split; auto.
  intros o ob n Ho Hn. rewrite references_tot. destruct (i_obj _ _ _ _ _ _ I _ _ _ Ho Hn) as (_ & i & A1 & A2 & A3 & _). eauto.
Qed.

Lemma shares_ok o ob n : forall k h v pl L i, Inv h v pl [] [] L -> objs h o = Some ob -> o_sp ob = Some n -> nodes h n = Some i ->
  (tot h v [] [] o = 0 -> pl o = n_cr i) -> (Z.of_nat (tot h v [] [] o) + Z.of_nat k <= 65535)%Z ->
  exists h' v' L', run (repeat (OShare o) k) h = Ok h' /\ Inv h' v' pl [] [] L' /\ objs h' = objs h /\
    tot h' v' [] [] o = tot h v [] [] o + k.
Proof.
  induction k as [|k IH]; intros h v pl L i I Eo Es En Hp Hk.
  - exists h, v, L. cbn [repeat run]. split; auto.
  - destruct (share_ok h v pl [] L o ob n i I Eo Es En) as (h1 & L1 & E1 & I1 & O1); auto; [lia|].
    apply pend_to_var in I1. cbn [repeat run step]. rewrite E1. cbn [rbind].
    assert (T1 : tot h1 (upd1 v o (S (v o))) [] [] o = S (tot h v [] [] o)).
    { unfold tot. rewrite upd1_eq. unfold heldx, contrib. rewrite O1.
      replace (onext h1) with (onext h); [lia|].
      unfold share, get_obj, get_node in E1. rewrite Eo in E1. cbn [ofo rbind] in E1. destruct (o_const ob); [discriminate|].
      rewrite Es, En in E1. cbn [ofo rbind] in E1. destruct (n_sh i =? 0)%Z; [|injection E1 as <-; reflexivity].
      unfold detach_node in E1. destruct (next _ n); [|discriminate]. destruct (prev _ n); [|discriminate].
      destruct (get_node _ n0); try discriminate. destruct (get_node _ n1); try discriminate. cbn [rbind] in E1.
      destruct (of_outcome _); try discriminate. injection E1 as <-. reflexivity. }
    destruct (i_obj _ _ _ _ _ _ I1 o ob n) as (_ & i1 & En1 & _); [congruence|auto|].
    destruct (IH h1 _ pl L1 i1 I1) as (h' & v' & L' & E' & I' & O' & T'); auto; try congruence; try lia.
    exists h', v', L'. split; auto. split; auto. split; [congruence|lia].
Qed.
(** REFUTED without the limit: the 65536th reference makes the count 0, silently; dropping
    any of them is then an internal error. *)
Definition many_shares (k : nat) : list op := [ONew false; OCreate 0 0] ++ repeat (OShare 0) k.
Theorem C49_count_wraps_refuted : forall k, Z.of_nat k = 65536%Z ->
  exists h, run (many_shares k) empty = Ok h /\ vars (ghost_after (many_shares k) no_ghost) 0 = k /\
    (exists ob n i, objs h 0 = Some ob /\ o_sp ob = Some n /\ nodes h n = Some i /\ n_sh i = 0%Z) /\
    forall b, step (OUnref 0 b) h = Thr.
Proof.
  intros k Hk. destruct k as [|k]; [lia|].
  assert (Hrun : forall a b h, run (a ++ b) h = (do h1 <- run a h; run b h1)).
  { induction a as [|x a IH]; intros b h; cbn [app run]; auto. destruct (step x h); cbn [rbind]; auto. }
  assert (V : forall m g, vars (ghost_after (repeat (OShare 0) m) g) 0 = m + vars g 0).
  { induction m as [|m IH]; intros g; auto. cbn [repeat]. unfold ghost_after in *. cbn [fold_left gstep].
    rewrite IH. cbn. lia. }
  set (l0 := [ONew false; OCreate 0 0]).
  assert (L0 : legal_history l0 empty no_ghost).
  { cbn. split; auto. intros h' E. injection E as <-. split; [|auto]. eexists. repeat split; reflexivity. }
  destruct (history_ok l0 empty no_ghost _ empty_ok L0) as (h0 & L & E0 & I0).
  assert (F : exists ob i, objs h0 0 = Some ob /\ o_sp ob = Some 0 /\ nodes h0 0 = Some i /\ n_cr i = 0).
  { cbn in E0. injection E0 as <-. cbn. unfold upd1. cbn. do 2 eexists. repeat split. }
  destruct F as (ob & i & Eo & Es & En & Ecr).
  assert (T0 : tot h0 (vars (ghost_after l0 no_ghost)) [] [] 0 = 0).
  { cbn in E0. injection E0 as <-. reflexivity. }
  destruct (shares_ok 0 ob 0 k h0 _ _ L i I0 Eo Es En) as (h1 & v1 & L1 & E1 & I1 & O1 & T1).
  { intros _. cbn. auto. } { lia. }
  destruct (i_obj _ _ _ _ _ _ I1 0 ob 0) as (Hc & i1 & En1 & Er1 & Ek1 & _); [congruence|auto|].
  exists (set_node h1 0 (Some (mkninfo 0 (n_obj i1) (n_cr i1)))). split; [|split; [|split]].
  - unfold many_shares. fold l0. rewrite Hrun, E0. cbn [rbind].
    replace (S k) with (k + 1) by lia. rewrite repeat_app, Hrun, E1. cbn [rbind repeat run step].
    unfold share, get_obj, get_node. rewrite O1, Eo. cbn [ofo rbind]. rewrite Hc, Es, En1. cbn [ofo rbind].
    assert (Es1 : n_sh i1 = 65535%Z) by lia. rewrite Es1. reflexivity.
  - unfold many_shares. fold l0. unfold ghost_after. rewrite fold_left_app.
    fold (ghost_after (repeat (OShare 0) (S k)) (fold_left (fun g a => gstep a g) l0 no_ghost)). rewrite V. cbn. lia.
  - exists ob, 0. eexists. split; [cbn; congruence|]. split; auto. split; reflexivity.
  - intros b. cbn [step]. unfold unref, unref_with, get_obj, get_node. cbn [objs set_node nodes]. rewrite O1, Eo. cbn [ofo rbind].
    rewrite Hc, Es. reflexivity.
Qed.
Example C49_case : observe two_objects (fun h => (count_of h 0, references h (ghost_after two_objects no_ghost) 0)) = Some (Some 1%Z, 1) /\
  vars (ghost_after two_objects no_ghost) 0 = 0.
Proof. split; reflexivity. Qed.

(** C50. Ending a block: everything waiting there is freed, with what only it kept alive,
    except what is being returned, which lives on uncounted; the list ends empty. *)
Theorem C50_block_released : forall l h b ret h', legal_history l empty no_ghost -> run l empty = Ok h ->
  step (OSweep b ret) h = Ok h' ->
  bfst h' b = None /\
  (forall o, waits h b o -> ~ In o ret -> objs h' o = None) /\
  (forall o, waits h b o -> In o ret -> exists ob, objs h o = Some ob /\ objs h' o = Some (mkobj (o_const ob) None (o_refs ob))) /\
  (forall p ob, objs h p = Some ob -> objs h' p = None ->
     references h' (ghost_after l no_ghost) p = 0 /\ exists o, waits h b o /\ ~ In o ret /\ reach h o p) /\
  (forall p, objs h' p <> None -> objs h p <> None).
Proof.
  intros l h b ret h' Hl Hr Hs. destruct (history_ok l empty no_ghost _ empty_ok Hl) as (h0 & L & E & I).
  rewrite Hr in E. injection E as <-. cbn [step] in Hs.
  destruct (sweep_ok _ _ _ _ _ b ret I) as (h1 & L1 & D & I1 & Lb & Lo & On & W1 & W2 & W3 & W4).
  rewrite D in Hs. injection Hs as ->.
  pose proof (fun o => waits_in _ _ _ _ _ _ b o I) as WI.
  split; [|split; [|split; [|split]]].
  - pose proof (inv_first _ _ (i_ring _ _ _ _ _ _ I1 b)) as H. rewrite Lb in H. exact H.
  - intros o Ho. apply WI in Ho as (n & i & H1 & H2 & <-). eauto.
  - intros o Ho. apply WI in Ho as (n & i & H1 & H2 & <-). eauto.
  - intros p ob Hp Hp'. split.
    + rewrite references_tot. apply (i_nosp _ _ _ _ _ _ I1). auto.
    + destruct (W3 p ob Hp Hp') as (n & i & H1 & H2 & H3 & H4). exists (n_obj i). split; [apply WI; eauto|]. auto.
  - intros p Hp. destruct (objs h' p) as [ob'|] eqn:E'; [|congruence]. destruct (W4 _ _ E') as (ob & -> & _). discriminate.
Qed.
(** A counted object nobody refers to always waits in some block's list, so it is not lost. *)
Theorem C50_unreferenced_waits_partial : forall l h, legal_history l empty no_ghost -> run l empty = Ok h ->
  forall o ob n, objs h o = Some ob -> o_sp ob = Some n -> references h (ghost_after l no_ghost) o = 0 ->
  waits h (place (ghost_after l no_ghost) o) o.
Proof.
  intros l h Hl Hr o ob n Ho Hn Hz. destruct (history_ok l empty no_ghost _ empty_ok Hl) as (h0 & L & E & I).
  rewrite Hr in E. injection E as <-. rewrite references_tot in Hz.
  destruct (i_obj _ _ _ _ _ _ I _ _ _ Ho Hn) as (_ & i & A1 & A2 & A3 & A4 & A5).
  apply (waits_in _ _ _ _ _ _ _ _ I). exists n, i. auto.
Qed.
(** Leaving a scope with its variables keeps whatever is still referred to. *)
Theorem C50_scope_end_partial : forall l h b vs ret, legal_history l empty no_ghost -> run l empty = Ok h ->
  legal (OPop b vs ret) h (ghost_after l no_ghost) ->
  exists h', step (OPop b vs ret) h = Ok h' /\ bfst h' b = None /\
    forall o, 0 < references h' (ghost_after (l ++ [OPop b vs ret]) no_ghost) o -> objs h' o <> None.
Proof.
  intros l h b vs ret Hl Hr Hg. destruct (history_ok l empty no_ghost _ empty_ok Hl) as (h0 & L & E & I).
  rewrite Hr in E. injection E as <-. set (g := ghost_after l no_ghost) in *. cbn [legal] in Hg.
  destruct (minus_vars vs h g [] L I Hg) as (Ep & I1).
  destruct (pop_vars_ok ret _ _ _ _ _ _ I1) as (h1 & D1 & I2 & _).
  destruct (sweep_ok _ _ _ _ _ b ret I2) as (h' & L' & D & I' & Lb & _).
  exists h'. cbn [step]. unfold pop_scope. rewrite D1. cbn [rbind]. split; auto. split.
  - pose proof (inv_first _ _ (i_ring _ _ _ _ _ _ I' b)) as H. rewrite Lb in H. exact H.
  - intros o Ho. unfold ghost_after in Ho. rewrite fold_left_app in Ho. fold (ghost_after l no_ghost) in Ho. fold g in Ho.
    cbn [fold_left gstep] in Ho. rewrite references_tot in Ho.
    destruct (held_is_live _ _ _ _ _ _ _ I' Ho) as (ob & n & i & E1 & _). congruence.
Qed.
(** REFUTED for what is returned: [var o={}; var c={x:o}; return o;] and
    [var c={x:{}}; return c.x;] free the object being returned, because leaving the scope
    drops [o]'s own reference first and then destroys [c], which holds the last one. *)
Definition return_held1 : list op :=
  [ONew false; OCreate 0 1; OShare 0; ONew false; OCreate 1 1; OShare 1; OPut 1 0; OPop 1 [0; 1] [0]].
Definition return_held2 : list op :=
  [ONew false; OCreate 0 1; ONew false; OCreate 1 1; OShare 1; OPut 1 0; OPop 1 [1] [0]].
Theorem C50_returned_object_freed_refuted :
  legal_history return_held1 empty no_ghost /\ observe return_held1 (fun h => objs h 0) = Some None /\
  legal_history return_held2 empty no_ghost /\ observe return_held2 (fun h => objs h 0) = Some None.
Proof.
  repeat match goal with |- _ /\ _ => split | |- let _ := _ in _ => intros ? end;
    first [reflexivity | apply legal_check_ok; reflexivity].
Qed.
(** Objects referring to each other outlive every variable. *)
Definition cycle : list op :=
  [ONew false; OCreate 0 1; OShare 0; ONew false; OCreate 1 1; OShare 1; OPut 1 0; OPut 0 1; OPop 1 [0; 1] []].
Theorem C50_cycle_survives_refuted :
  legal_history cycle empty no_ghost /\
  observe cycle (fun h => (count_of h 0, count_of h 1)) = Some (Some 1%Z, Some 1%Z) /\
  vars (ghost_after cycle no_ghost) 0 = 0 /\ vars (ghost_after cycle no_ghost) 1 = 0.
Proof.
  repeat match goal with |- _ /\ _ => split | |- let _ := _ in _ => intros ? end;
    first [reflexivity | apply legal_check_ok; reflexivity].
Qed.
Example C50_case :
  let l := [ONew false; OCreate 0 1; ONew false; OCreate 1 1; ONew false; OCreate 2 1; OPut 1 2] in
  legal_history l empty no_ghost /\
  observe (l ++ [OSweep 1 [0]]) (fun h => (objs h 0, objs h 1, objs h 2, bfst h 1)) = Some (Some (mkobj false None []), None, None, None) /\
  observe (l ++ [OShare 0; OShare 1; OPop 1 [1; 0] [0]]) (fun h => (objs h 0, objs h 1, objs h 2, bfst h 1))
    = Some (Some (mkobj false None []), None, None, None).
Proof. split; [apply legal_check_ok; reflexivity|]. split; reflexivity. Qed.

(** C82. The delete statement releases the reference and looks at the object afterwards:
    fine while other references exist. *)
Theorem C82_delete_shared_partial : forall l h o, legal_history l empty no_ghost -> run l empty = Ok h ->
  1 <= vars (ghost_after l no_ghost) o -> 2 <= references h (ghost_after l no_ghost) o ->
  exists h', delete_statement h o = Ok h' /\ step (OUnref o None) h = Ok h' /\ objs h' o <> None.
Proof.
  intros l h o Hl Hr Hv H2.
  destruct (history_ok l empty no_ghost _ empty_ok Hl) as (h0 & L & E & I). rewrite Hr in E. injection E as <-.
  destruct (unref_none_ok _ _ _ _ _ _ _ (var_to_pend _ _ _ _ _ _ _ I Hv)) as (h1 & D & _).
  destruct (C48_freed_with_last_reference_partial l h o h1 Hl Hr Hv D) as (Hi & _).
  exists h1. unfold delete_statement. rewrite D. cbn [rbind]. unfold get_obj.
  destruct (objs h1 o) as [ob|] eqn:Eo; [|destruct Hi as (Hi & _); specialize (Hi eq_refl); lia].
  repeat split; auto. discriminate.
Qed.
(** REFUTED for the ordinary case: deleting the only reference reads the freed object. *)
Theorem C82_delete_last_reference_refuted : forall l h o, legal_history l empty no_ghost -> run l empty = Ok h ->
  vars (ghost_after l no_ghost) o = 1 -> references h (ghost_after l no_ghost) o = 1 ->
  delete_statement h o = UB.
Proof.
  intros l h o Hl Hr Hv H1.
  destruct (history_ok l empty no_ghost _ empty_ok Hl) as (h0 & L & E & I). rewrite Hr in E. injection E as <-.
  assert (Hg : 1 <= vars (ghost_after l no_ghost) o) by lia.
  destruct (unref_none_ok _ _ _ _ _ _ _ (var_to_pend _ _ _ _ _ _ _ I Hg)) as (h1 & D & _).
  destruct (C48_freed_with_last_reference_partial l h o h1 Hl Hr Hg D) as (Hi & _).
  unfold delete_statement. rewrite D. cbn [rbind]. unfold get_obj.
  destruct Hi as (_ & Hi). now rewrite (Hi H1).
Qed.
(** Deleting an object no variable or container refers to is an internal error. *)
Theorem C82_delete_temporary : forall l h o ob n, legal_history l empty no_ghost -> run l empty = Ok h ->
  objs h o = Some ob -> o_sp ob = Some n -> references h (ghost_after l no_ghost) o = 0 -> delete_statement h o = Thr.
Proof.
  intros l h o ob n Hl Hr Ho Hn Hz.
  destruct (history_ok l empty no_ghost _ empty_ok Hl) as (h0 & L & E & I). rewrite Hr in E. injection E as <-.
  rewrite references_tot in Hz. destruct (i_obj _ _ _ _ _ _ I _ _ _ Ho Hn) as (Hc & i & A1 & A2 & A3 & _).
  unfold delete_statement, unref, unref_with, get_obj, get_node. rewrite Ho. cbn [ofo rbind]. rewrite Hc, Hn, A1. cbn [ofo rbind].
  destruct (Z.eqb_spec (n_sh i) 0); [reflexivity|lia].
Qed.
Example C82_case :
  let l := [ONew false; OCreate 0 0; OShare 0; OShare 0] in
  legal_history l empty no_ghost /\ vars (ghost_after l no_ghost) 0 = 2 /\
  observe l (fun h => (references h (ghost_after l no_ghost) 0, match delete_statement h 0 with Ok h' => count_of h' 0 | _ => None end))
    = Some (2, Some 1%Z) /\
  let l1 := [ONew false; OCreate 0 0; OShare 0] in
  legal_history l1 empty no_ghost /\ vars (ghost_after l1 no_ghost) 0 = 1 /\
  observe l1 (fun h => (references h (ghost_after l1 no_ghost) 0, thrown (delete_statement h 0), match delete_statement h 0 with UB => true | _ => false end))
    = Some (1, false, true).
Proof.
  repeat match goal with |- _ /\ _ => split | |- let _ := _ in _ => intros ? end;
    first [reflexivity | apply legal_check_ok; reflexivity].
Qed.

(** C49 REFUTED for an object that holds itself: removing the reference leaves the count one
    above the references, so the object is never freed. *)
Theorem C49_self_reference_refuted : forall l h p ob n b, legal_history l empty no_ghost -> run l empty = Ok h ->
  objs h p = Some ob -> o_sp ob = Some n -> In p (o_refs ob) ->
  exists h' i, step (OTake p p b) h = Ok h' /\ nodes h' n = Some i /\
    n_sh i = Z.of_nat (S (references h' (ghost_after l no_ghost) p)).
Proof.
  intros l h p ob n b Hl Hr Ho Hn Hi. destruct (history_ok l empty no_ghost _ empty_ok Hl) as (h0 & L & E & I).
  rewrite Hr in E. injection E as <-. set (g := ghost_after l no_ghost) in *.
  cbn [step]. unfold take_ref. rewrite Nat.eqb_refl. unfold get_obj. rewrite Ho. cbn [ofo rbind].
  set (h1 := set_obj _ _ _). exists h1.
  destruct (i_obj _ _ _ _ _ _ I _ _ _ Ho Hn) as (_ & i & A1 & A2 & A3 & _). exists i. repeat split; auto.
  rewrite A3, references_tot. f_equal. assert (Hb : p < onext h) by (eapply i_bound; eauto).
  pose proof (heldx_change h h1 [] [] p p eq_refl Hb) as Hx. unfold tot.
  pose proof (count_remove1 p (o_refs ob) p Hi) as Hc. simpl in Hc. destruct (Nat.eq_dec p p) as [_|]; [|congruence].
  unfold contrib in Hx at 3 4. cbn [mem existsb] in Hx. rewrite Ho in Hx. 
  assert (E1 : objs h1 p = Some (mkobj (o_const ob) (o_sp ob) (remove1 p (o_refs ob)))) by (unfold h1; cbn; now rewrite upd1_eq).
  rewrite E1 in Hx. cbn [o_refs] in Hx.
  assert (Hy : heldx h1 [] p + count_occ Nat.eq_dec (o_refs ob) p = heldx h [] p + count_occ Nat.eq_dec (remove1 p (o_refs ob)) p).
  { apply Hx. intros q Hq. unfold contrib, h1. cbn [mem existsb objs set_obj]. now rewrite upd1_ne. }
  simpl. lia.
Qed.
Example C49_self_case :
  let l := [ONew false; OCreate 0 0; OShare 0; OPut 0 0] in
  legal_history l empty no_ghost /\ observe l (fun h => option_map o_refs (objs h 0)) = Some (Some [0]) /\
  observe (l ++ [OTake 0 0 None; OUnref 0 None]) (fun h => (option_map o_refs (objs h 0), count_of h 0)) = Some (Some [], Some 1%Z).
Proof.
  repeat match goal with |- _ /\ _ => split | |- let _ := _ in _ => intros ? end;
    first [reflexivity | apply legal_check_ok; reflexivity].
Qed.

(** C89. The value pop returns. *)
Lemma take_last l h p o : legal_history l empty no_ghost -> run l empty = Ok h ->
  (exists ob, objs h p = Some ob /\ In o (o_refs ob)) ->
  exists h', drop_ref h p o None = Ok h' /\ (objs h' o = None <-> references h (ghost_after l no_ghost) o = 1).
Proof.
  intros Hl Hr Hg. destruct (history_ok l empty no_ghost _ empty_ok Hl) as (h0 & L & E & I).
  rewrite Hr in E. injection E as <-. set (g := ghost_after l no_ghost) in *. unfold drop_ref.
  destruct Hg as (obp & Ep & Hi). unfold get_obj at 1. rewrite Ep. cbn [ofo rbind]. set (h1 := set_obj _ _ _).
  assert (I1 : Inv h1 (vars g) (place g) [o] [] L).
  { eapply Inv_refs; eauto. intros x. pose proof (count_remove1 o (o_refs obp) x Hi) as H. simpl in *. destruct (Nat.eq_dec o x); lia. }
  destruct (unref_none_ok _ _ _ _ _ _ _ I1) as (h' & D & I2 & (F1 & F2 & F3 & F4 & F5 & F6 & F7) & F8).
  exists h'. split; auto.
  destruct (held_is_live _ _ _ _ _ _ o I1) as (ob & n & i & Eo & Es & En & Er & Ec & Ek & _ & HL & Hb).
  { rewrite tot_cons. destruct (Nat.eq_dec o o); [lia|congruence]. }
  assert (T : n_sh i = Z.of_nat (references h g o)).
  { assert (exists ob0, objs h o = Some ob0 /\ o_sp ob0 = Some n) as (ob0 & Eo0 & Es0).
    { unfold h1 in Eo. cbn in Eo. destruct (Nat.eq_dec o p) as [->|Hne].
      - rewrite upd1_eq in Eo. injection Eo as <-. exists obp. split; auto.
      - rewrite upd1_ne in Eo by auto. eauto. }
    destruct (i_obj _ _ _ _ _ _ I _ _ _ Eo0 Es0) as (_ & i' & A1 & A2 & A3 & _).
    change (nodes h1 n) with (nodes h n) in En. rewrite A1 in En. injection En as <-. now rewrite references_tot. }
  rewrite tot_cons in Ek. destruct (Nat.eq_dec o o) as [_|]; [|congruence].
  split.
  - intros Hn. destruct (Nat.eq_dec (tot h1 (vars g) [] [] o) 0) as [Hz|Hz]; [lia|]. exfalso.
    unfold unref, unref_with, get_obj, get_node in D. rewrite Eo in D. cbn [ofo rbind] in D.
    rewrite Ec, Es, En in D. cbn [ofo rbind] in D.
    destruct (Z.eqb_spec (n_sh i) 0); [lia|]. destruct (Z.eqb_spec (n_sh i - 1) 0); [lia|].
    injection D as <-. cbn [set_node objs] in Hn. change (objs h1 o = None) in Hn. congruence.
  - intros H1. assert (Hz : tot h1 (vars g) [] [] o = 0) by lia.
    destruct (objs h' o) as [ob'|] eqn:E'; auto. exfalso.
    pose proof (F6 _ _ E') as E2. rewrite Eo in E2. injection E2 as <-.
    destruct (i_obj _ _ _ _ _ _ I2 _ _ _ E' Es) as (_ & i' & A1 & A2 & A3 & A4 & A5).
    eapply HL. apply A5; auto.
    pose proof (tot_sub h1 h' (vars g) [] [] o F1 F6) as Hle. lia.
Qed.
(** While another reference to the popped object exists, pop returns a live object. *)
Theorem C89_pop_shared_partial : forall l h p o, legal_history l empty no_ghost -> run l empty = Ok h ->
  (exists ob, objs h p = Some ob /\ In o (o_refs ob)) -> 2 <= references h (ghost_after l no_ghost) o ->
  exists h' ob', array_pop h p o = Ok h' /\ objs h' o = Some ob'.
Proof.
  intros l h p o Hl Hr Hi H2. unfold array_pop, take_ref. destruct (Nat.eqb_spec o p) as [->|Hpo].
  { destruct Hi as (ob & Ep & Hi). unfold get_obj. rewrite Ep. cbn [ofo rbind objs set_obj]. rewrite upd1_eq. cbn [ofo rbind].
    do 2 eexists. split; [reflexivity|]. cbn. now rewrite upd1_eq. }
  destruct (take_last l h p o Hl Hr Hi) as (h' & E & Hn).
  exists h'. rewrite E. cbn [rbind]. unfold get_obj.
  destruct (objs h' o) as [ob'|]; [eexists; split; reflexivity|]. destruct Hn as (Hn & _). specialize (Hn eq_refl). lia.
Qed.
(** REFUTED: an object only the array refers to is freed before it is returned. *)
Theorem C89_pop_last_reference_refuted : forall l h p o, legal_history l empty no_ghost -> run l empty = Ok h ->
  (exists ob, objs h p = Some ob /\ In o (o_refs ob)) -> p <> o -> references h (ghost_after l no_ghost) o = 1 ->
  array_pop h p o = UB.
Proof.
  intros l h p o Hl Hr Hi Hpo H1. destruct (take_last l h p o Hl Hr Hi) as (h' & E & Hn).
  unfold array_pop, take_ref. destruct (Nat.eqb_spec o p); [congruence|]. rewrite E. cbn [rbind]. unfold get_obj. destruct Hn as (_ & Hn). now rewrite (Hn H1).
Qed.
Example C89_case :
  let l := [ONew false; OCreate 0 0; OShare 0; ONew false; OCreate 1 0; OPut 0 1] in
  legal_history l empty no_ghost /\
  observe l (fun h => (option_map o_refs (objs h 0), references h (ghost_after l no_ghost) 1)) = Some (Some [1], 1) /\
  let l2 := l ++ [OShare 1] in
  legal_history l2 empty no_ghost /\
  observe l2 (fun h => (option_map o_refs (objs h 0), references h (ghost_after l2 no_ghost) 1)) = Some (Some [1], 2).
Proof.
  repeat match goal with |- _ /\ _ => split | |- let _ := _ in _ => intros ? end;
    first [reflexivity | apply legal_check_ok; reflexivity].
Qed.

(** C90. Storing again what a field already holds, as `o.extend(o)` does for every field. *)
Theorem C90_stored_again_partial : forall l h p o, legal_history l empty no_ghost -> run l empty = Ok h ->
  (exists ob, objs h p = Some ob /\ In o (o_refs ob)) -> p <> o -> 2 <= references h (ghost_after l no_ghost) o ->
  exists h' ob n i, reassign h p o = Ok h' /\ objs h' o = Some ob /\ o_sp ob = Some n /\ nodes h' n = Some i /\
    n_sh i = Z.of_nat (references h (ghost_after l no_ghost) o).
Proof.
  intros l h p o Hl Hr Hi Hpo H2. destruct Hi as (obp & Ep & Hi).
  destruct (history_ok l empty no_ghost _ empty_ok Hl) as (h0 & L & E & I).
  rewrite Hr in E. injection E as <-. set (g := ghost_after l no_ghost) in *.
  unfold reassign, take_ref. destruct (Nat.eqb_spec o p); [congruence|].
  unfold drop_ref. unfold get_obj at 1. rewrite Ep. cbn [ofo rbind]. set (h1 := set_obj _ _ _).
  assert (I1 : Inv h1 (vars g) (place g) [o] [] L).
  { eapply Inv_refs; eauto. intros x. pose proof (count_remove1 o (o_refs obp) x Hi) as H. simpl in *. destruct (Nat.eq_dec o x); lia. }
  destruct (held_is_live _ _ _ _ _ _ o I1) as (ob & n' & i & Eo & Es & En & Er & Ec & Ek & _ & HL & Hb).
  { rewrite tot_cons. destruct (Nat.eq_dec o o); [lia|congruence]. }
  assert (Eo0 : objs h o = Some ob) by (unfold h1 in Eo; cbn in Eo; rewrite upd1_ne in Eo by auto; auto).
  destruct (i_obj _ _ _ _ _ _ I _ _ _ Eo0 Es) as (_ & i' & A1 & A2 & A3 & A4 & _).
  assert (i' = i) as -> by (change (nodes h1 n') with (nodes h n') in En; congruence).
  rewrite references_tot in *.
  assert (U : unref h1 o None = Ok (set_node h1 n' (Some (mkninfo (n_sh i - 1) (n_obj i) (n_cr i))))).
  { unfold unref, unref_with, get_obj, get_node. rewrite Eo. cbn [ofo rbind]. rewrite Ec, Es, En. cbn [ofo rbind].
    destruct (Z.eqb_spec (n_sh i) 0); [lia|]. destruct (Z.eqb_spec (n_sh i - 1) 0); [lia|]. reflexivity. }
  rewrite U. cbn [rbind]. set (h2 := set_node _ _ _).
  assert (S : share h2 o = Ok (set_node h2 n' (Some (mkninfo (n_sh i) (n_obj i) (n_cr i))))).
  { unfold share, get_obj, get_node. change (objs h2 o) with (objs h1 o). rewrite Eo. cbn [ofo rbind]. rewrite Ec, Es.
    unfold h2 at 1. cbn [nodes set_node]. rewrite upd1_eq. cbn [ofo rbind n_sh n_obj n_cr].
    destruct (Z.eqb_spec (n_sh i - 1) 0); [lia|]. rewrite Z.sub_add, Z.mod_small by lia. reflexivity. }
  rewrite S. cbn [rbind]. unfold get_obj. cbn [objs set_node]. unfold h2. cbn [objs set_node]. unfold h1. cbn [objs set_obj]. rewrite upd1_eq. cbn [ofo rbind].
  eexists. exists ob, n'. eexists. split; [reflexivity|]. cbn. rewrite upd1_ne by auto. rewrite upd1_ne by auto. rewrite upd1_eq.
  repeat split; auto.
Qed.
(** REFUTED: an object only that field refers to is freed before it is shared again. *)
Theorem C90_extend_itself_refuted : forall l h p o, legal_history l empty no_ghost -> run l empty = Ok h ->
  (exists ob, objs h p = Some ob /\ In o (o_refs ob)) -> p <> o -> references h (ghost_after l no_ghost) o = 1 ->
  reassign h p o = UB.
Proof.
  intros l h p o Hl Hr Hi Hpo H1. destruct (take_last l h p o Hl Hr Hi) as (h' & E & Hn).
  unfold reassign, take_ref. destruct (Nat.eqb_spec o p); [congruence|]. rewrite E. cbn [rbind].
  unfold share, get_obj. destruct Hn as (_ & Hn). now rewrite (Hn H1).
Qed.
Example C90_extend_case :
  let l := [ONew false; OCreate 0 0; OShare 0; ONew false; OCreate 1 0; OPut 0 1] in
  legal_history l empty no_ghost /\
  observe l (fun h => (option_map o_refs (objs h 0), references h (ghost_after l no_ghost) 1)) = Some (Some [1], 1) /\
  let l2 := l ++ [OShare 1] in
  legal_history l2 empty no_ghost /\
  observe l2 (fun h => (option_map o_refs (objs h 0), references h (ghost_after l2 no_ghost) 1)) = Some (Some [1], 2).
Proof. exact C89_case. Qed.

Print Assumptions C90_stored_again_partial.
Print Assumptions C90_extend_itself_refuted.
Print Assumptions C49_self_reference_refuted.
Print Assumptions C48_never_freed_while_referenced_partial.
Print Assumptions C48_freed_with_last_reference_partial.
Print Assumptions C48_shared_again_elsewhere_refuted.
Print Assumptions C49_count_is_references_partial.
Print Assumptions C49_count_wraps_refuted.
Print Assumptions C50_block_released.
Print Assumptions C50_unreferenced_waits_partial.
Print Assumptions C50_scope_end_partial.
Print Assumptions C50_returned_object_freed_refuted.
Print Assumptions C50_cycle_survives_refuted.
Print Assumptions C82_delete_shared_partial.
Print Assumptions C82_delete_last_reference_refuted.
Print Assumptions C82_delete_temporary.
Print Assumptions C89_pop_shared_partial.
Print Assumptions C89_pop_last_reference_refuted.
