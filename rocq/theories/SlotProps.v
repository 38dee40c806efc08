(** Containers held by containers: what holds and what does not.

    [addr] gives the addresses of the containers; every theorem is for all of them. *)
From Coq Require Import List ZArith Bool Arith Lia.
From Verif Require Import SlotModel SlotSpec SlotProofs SlotRun SlotEval SlotClear.
Import ListNotations.
Local Arguments Nat.ltb : simpl never.

(** *** Programs of the cases *)
Definition no_addr : nat -> nat := fun x => x.
(** v0 = {0: {0: {}}}; v1 = [v0, 5]; v0.1 = v1; v0.0 = 7 *)
Definition obj1 (k : nat) (e : expr) : expr := EPush (ENew false) k e.
Definition p_case : list stmt :=
  [Set_ (LVar 0) (obj1 0 (obj1 0 (ENew false)));
   Set_ (LVar 1) (EPush (EPush (ENew true) 0 (EVar 0)) 0 (EInt 5));
   Set_ (LDot (EVar 0) 1) (EVar 1);
   Set_ (LDot (EVar 0) 0) (EInt 7)].
(** v0 = {0: {0: {}}}; v0.0 = v0.0.0 *)
Definition p_free : list stmt :=
  [Set_ (LVar 0) (obj1 0 (obj1 0 (ENew false))); Set_ (LDot (EVar 0) 0) (EDot (EDot (EVar 0) 0) 0)].
(** v0 = [{}]; v0[0] = {} *)
Definition p_over : list stmt :=
  [Set_ (LVar 0) (EPush (ENew true) 0 (ENew false)); Set_ (LIdx (EVar 0) 0) (ENew false)].
(** v0 = {}; v0.0 = v0 *)
Definition p_self : list stmt := [Set_ (LVar 0) (ENew false); Set_ (LDot (EVar 0) 0) (EVar 0)].
(** v0 = [[1]] *)
Definition p_nest : list stmt := [Set_ (LVar 0) (EPush (ENew true) 0 (EPush (ENew true) 0 (EInt 1)))].

(** Computes a run statement by statement; the order of two addresses is split where it matters. *)
Lemma run_cons addr h st r : run addr h (st :: r) = obind (run1 addr h st) (fun h1 => run addr h1 r).
Proof. reflexivity. Qed.
Ltac step := rewrite run_cons; match goal with |- context [run1 ?a ?h ?s] => let r := eval cbv -[Nat.ltb] in (run1 a h s) in change (run1 a h s) with r end;
  repeat match goal with |- context [?x <? ?y] => destruct (x <? y) end; cbn [obind].
Definition ends (r : out hp) (P : hp -> Prop) : Prop := match r with Fine h => P h | _ => False end.

(** ** C143: no program touches a container, element or slot that was destroyed *)
Theorem C143_no_freed_memory_partial : forall addr n p,
  Forall wf_stmt p -> keeping addr (start n) p ->
  (exists h, run addr (start n) p = Fine h /\ exists h', sweep h = Fine h') \/ run addr (start n) p = Script.
Proof.
  intros addr n p W C. destruct (start_ok n) as (D & S & F). pose proof (run_ok addr p _ _ D S W) as R.
  unfold RunPostX, RunPost in R. destruct (run addr (start n) p) as [h| | | |] eqn:E; try easy; [left|auto].
  exists h. split; [auto|]. destruct R as (D' & _ & _).
  destruct (sweep_list_ok (fun _ => False) (zero h) h D' eq_refl) as (h' & E' & _); [easy|]. exists h'. exact E'.
Qed.
(** A condition on the text of the program that is enough: fields are given no values read from containers. *)
Theorem C143_careful_partial : forall addr n p,
  Forall wf_stmt p -> Forall careful p ->
  (exists h, run addr (start n) p = Fine h /\ exists h', sweep h = Fine h') \/ run addr (start n) p = Script.
Proof. intros addr n p W C. apply C143_no_freed_memory_partial; [auto|]. now apply careful_keeping. Qed.
(** Whatever the program, it breaks off in no other way, and what it leaves can be removed. *)
Theorem C143_outcomes : forall addr n p, Forall wf_stmt p ->
  (exists h, run addr (start n) p = Fine h /\ exists h', sweep h = Fine h') \/ run addr (start n) p = Script \/
  (run addr (start n) p = Crash /\ ~ keeping addr (start n) p).
Proof.
  intros addr n p W. destruct (start_ok n) as (D & S & F). pose proof (run_ok addr p _ _ D S W) as R.
  unfold RunPostX, RunPost in R. destruct (run addr (start n) p) as [h| | | |] eqn:E; try easy; [left|auto|auto].
  exists h. split; [auto|]. destruct R as (D' & _ & _).
  destruct (sweep_list_ok (fun _ => False) (zero h) h D' eq_refl) as (h' & E' & _); [easy|]. exists h'. exact E'.
Qed.
(** v0 = {0: {}}; v1 = {}; v1.0 = v0.0; v1.0 = v0.0: fields moved between objects *)
Definition p_move : list stmt :=
  [Set_ (LVar 0) (obj1 0 (ENew false)); Set_ (LVar 1) (ENew false);
   Set_ (LDot (EVar 1) 0) (EDot (EVar 0) 0); Set_ (LDot (EVar 1) 0) (EDot (EVar 0) 0)].
Example C143_move_case : Forall wf_stmt p_move /\ ~ Forall careful p_move /\ keeping no_addr (start 2) p_move.
Proof.
  split; [repeat constructor; cbn; intuition congruence|]. split.
  { intros C. inversion C as [|? ? _ C1]; subst. inversion C1 as [|? ? _ C2]; subst. inversion C2 as [|? ? X _]; subst. discriminate X. }
  assert (L : forall h, vars h = [VO 0; VO 2] -> forall c, objs h 0 = Some c -> get_item 0 (shown_items h (c_cells c)) = Some (SO 1) -> leads h 2 0 1).
  { intros h V c O G. apply (leads_elem _ _ _ 0 0 1 c); [apply leads_var; rewrite V; now left|congruence|auto|auto]. }
  unfold p_move. cbn [keeping keeps]. split; [exact I|]. 
  match goal with |- match ?r with _ => _ end => let v := eval vm_compute in r in change r with v end. cbn iota. split; [exact I|].
  match goal with |- match ?r with _ => _ end => let v := eval vm_compute in r in change r with v end. cbn iota. split.
  { right. intros h1 v h2 y p o E1 E2 P O. vm_compute in E1. injection E1 as <- <-. vm_compute in E2. injection E2 as <- <-.
    injection P as <-. vm_compute in O. injection O as <-. eapply L; reflexivity. }
  match goal with |- match ?r with _ => _ end => let v := eval vm_compute in r in change r with v end. cbn iota. split.
  { right. intros h1 v h2 y p o E1 E2 P O. vm_compute in E1. injection E1 as <- <-. vm_compute in E2. injection E2 as <- <-.
    injection P as <-. vm_compute in O. injection O as <-. eapply L; reflexivity. }
  match goal with |- match ?r with _ => _ end => let v := eval vm_compute in r in change r with v end. exact I.
Qed.
Example C143_case : Forall wf_stmt p_case /\ Forall careful p_case /\ ends (run no_addr (start 2) p_case) (fun _ => True).
Proof. split; [|split]; [repeat constructor; cbn; intuition congruence|repeat constructor|vm_compute; exact I]. Qed.

(** A field is given a container that only its old value holds: the old value is destroyed, and
    the container with it, before the container is stored. *)
Theorem C143_refuted : forall addr, Forall wf_stmt p_free /\ run addr (start 1) p_free = Crash.
Proof.
  intros addr. split; [repeat constructor; cbn; intuition congruence|].
  unfold p_free. step; step; reflexivity.
Qed.

(** ** C144: programs give the values of the reference semantics *)
Theorem C144_values : forall addr n p h,
  Forall wf_stmt p -> run addr (start n) p = Fine h ->
  exists S, srun (sstart n) p = Some S /\ shows h S.
Proof.
  intros addr n p h W E. destruct (start_ok n) as (D & S & F). pose proof (run_ok addr p _ _ D S W) as R. rewrite E in R.
  destruct R as (_ & X & _). exact X.
Qed.
Theorem C144_errors : forall addr n p, Forall wf_stmt p ->
  (run addr (start n) p = Script -> srun (sstart n) p = None) /\
  (srun (sstart n) p = None -> run addr (start n) p = Script \/ run addr (start n) p = Crash).
Proof.
  intros addr n p W. destruct (start_ok n) as (D & S & F). pose proof (run_ok addr p _ _ D S W) as R. unfold RunPostX, RunPost in R.
  destruct (run addr (start n) p) as [h| | | |] eqn:E; [|split; auto|easy|split; [easy|auto]|easy].
  destruct R as (_ & (S' & X & _) & _). split; [easy|]. rewrite X. easy.
Qed.
(** The containers variables lead to exist. *)
Inductive reach (h : hp) : nat -> Prop :=
| reach_var o : 0 < var_refs h o -> reach h o
| reach_elem p o : reach h p -> 0 < held_by h p o -> reach h o.
Theorem C144_reachable_exists : forall addr n p h h' o,
  Forall wf_stmt p -> run addr (start n) p = Fine h -> h' = h \/ sweep h = Fine h' -> reach h' o -> objs h' o <> None.
Proof.
  intros addr n p h h' o W E E' R. destruct (start_ok n) as (D & S & F). pose proof (run_ok addr p _ _ D S W) as X. rewrite E in X.
  destruct X as (D1 & _ & _). assert (D' : Inv h').
  { destruct E' as [->|E']; [auto|]. destruct (sweep_list_ok (fun _ => False) (zero h) h D1 eq_refl) as (h2 & E2 & D2 & _); [easy|]. unfold sweep in E'. congruence. }
  inversion R as [x V|q x Q V]; subst.
  - assert (In (VO o) (vars h')).
    { unfold var_refs in V. destruct (filter _ (vars h')) as [|v l] eqn:FL; [cbn in V; lia|].
      assert (I : In v (filter (fun v => match v with VO o' => o' =? o | _ => false end) (vars h'))) by (rewrite FL; now left).
      apply filter_In in I. destruct I as [I B]. destruct v; try discriminate. apply Nat.eqb_eq in B. now subst. }
    apply (d_var _ _ _ D' _ H).
  - apply held_pos in V. destruct V as [a [_ V]]. destruct (is_ref_slot _ _ _ D' V) as (s & _ & SL).
    destruct (d_src _ _ _ D' _ _ _ SL (fun z => z)) as [c [O _]]. congruence.
Qed.
Example C144_case : ends (run no_addr (start 2) p_case) (fun h =>
  vars h = [VO 0; VO 3] /\ (forall c, objs h 0 = Some c -> shown_items h (c_cells c) = [(0, SI 7); (1, SO 3)]) /\
  (forall c, objs h 3 = Some c -> shown_items h (c_cells c) = [(0, SO 0); (1, SI 5)]) /\ objs h 1 = None).
Proof. vm_compute. repeat split; intros c E; injection E as <-; reflexivity. Qed.

(** ** C145: the count of a container is the number of its references *)
Theorem C145_count_partial : forall addr n p h o c,
  Forall wf_stmt p -> calm addr (start n) p -> run addr (start n) p = Fine h ->
  objs h o = Some c -> c_n c = var_refs h o + elem_refs h o.
Proof.
  intros addr n p h o c W L E O. destruct (start_ok n) as (D & S & F). pose proof (run_ok addr p _ _ D S W) as R. rewrite E in R.
  destruct R as (D' & _ & FF). apply count_exact; auto.
Qed.
Theorem C145_never_low : forall addr n p h o c,
  Forall wf_stmt p -> run addr (start n) p = Fine h ->
  objs h o = Some c -> var_refs h o + elem_refs h o <= c_n c.
Proof.
  intros addr n p h o c W E O. destruct (start_ok n) as (D & S & F). pose proof (run_ok addr p _ _ D S W) as R. rewrite E in R.
  destruct R as (D' & _ & _). apply count_low; auto.
Qed.
Example C145_case : calm no_addr (start 2) p_case /\
  ends (run no_addr (start 2) p_case) (fun h => forall c, objs h 0 = Some c -> c_n c = 2 /\ var_refs h 0 = 1 /\ held_by h 3 0 = 1).
Proof. vm_compute. repeat split; match goal with X : _ = Some _ |- _ => injection X as <- end; reflexivity. Qed.
(** [v0[0] = {}] over a container leaves a count on the container that was there. *)
Theorem C145_refuted : forall addr, Forall wf_stmt p_over /\ Forall careful p_over /\
  ends (run addr (start 1) p_over) (fun h => exists c, objs h 1 = Some c /\ c_n c = 1 /\ var_refs h 1 + elem_refs h 1 = 0).
Proof.
  intros addr. split; [repeat constructor; cbn; intuition congruence|]. split; [repeat constructor|].
  unfold p_over. do 2 step; cbn [run ends]; eexists; repeat split; reflexivity.
Qed.

(** ** C146: what no variable leads to is destroyed when the program ends *)
Definition acyclic (h : hp) : Prop := exists d : nat -> nat, forall p o, 0 < held_by h p o -> d p < d o.
Theorem C146_referenced_partial : forall addr n p h h' o,
  Forall wf_stmt p -> calm addr (start n) p -> run addr (start n) p = Fine h -> sweep h = Fine h' ->
  objs h' o <> None -> 0 < var_refs h' o + elem_refs h' o.
Proof.
  intros addr n p h h' o W L E E' O. destruct (start_ok n) as (D & S & F). pose proof (run_ok addr p _ _ D S W) as R. rewrite E in R.
  destruct R as (D1 & _ & FF). destruct (sweep_list_ok (fun _ => False) (zero h) h D1 eq_refl) as (h2 & E2 & D2 & Z2 & _ & _ & _ & _ & F2); [easy|].
  assert (h2 = h') as -> by (unfold sweep in E'; congruence). apply swept; auto.
Qed.
Theorem C146_reachable_partial : forall addr n p h h' o,
  Forall wf_stmt p -> calm addr (start n) p -> run addr (start n) p = Fine h -> sweep h = Fine h' ->
  acyclic h' -> objs h' o <> None -> reach h' o.
Proof.
  intros addr n p h h' o W L E E' [d A]. revert o. enough (forall k o, d o < k -> objs h' o <> None -> reach h' o) as G by (intros o; apply (G (S (d o))); lia).
  induction k as [|k IH]; intros o K O; [lia|].
  pose proof (C146_referenced_partial addr n p h h' o W L E E' O) as R. destruct (var_refs h' o) eqn:V.
  - apply elem_pos in R. destruct R as [q Q]. apply (reach_elem _ q); [|auto]. apply IH.
    + specialize (A _ _ Q). lia.
    + unfold held_by in Q. destruct (objs h' q); [easy|lia].
  - apply reach_var. lia.
Qed.
Example C146_case : ends (run no_addr (start 1) p_nest) (fun h => calm no_addr (start 1) p_nest /\ ends (sweep h) (fun h' => objs h' 1 <> None /\ held_by h' 0 1 = 1)).
Proof. vm_compute. repeat split; discriminate. Qed.
(** x={a:{},a:1}, which the guard leaves out: the container the key held first is gone. *)
Example C146_repeated_case : ends (run no_addr (start 1) [Set_ (LVar 0) (EPush (EPush (ENew false) 0 (ENew false)) 0 (EInt 1))])
  (fun h => objs h 0 <> None /\ objs h 1 = None /\ slots h 0 = None /\ cells h 0 = Some (CI 1)).
Proof. vm_compute. repeat split; discriminate. Qed.
Theorem C146_refuted : forall addr, ends (run addr (start 1) p_over) (fun h => ends (sweep h) (fun h' =>
  acyclic h' /\ objs h' 1 <> None /\ ~ reach h' 1)).
Proof.
  intros addr.
  enough (G : ends (run addr (start 1) p_over) (fun h => ends (sweep h) (fun h' => objs h' 1 <> None /\ var_refs h' 1 = 0 /\ forall p o, 0 < held_by h' p o -> p = 0 /\ o = 2))).
  { destruct (run addr (start 1) p_over) as [h| | | |]; cbn [ends] in *; try easy. destruct (sweep h) as [h'| | | |]; cbn [ends] in *; try easy.
    destruct G as (O & V & H). split; [exists (fun x => x); intros p o X; apply H in X; lia|]. split; [auto|].
  intros R. inversion R as [x X|q x Q X]; subst; [lia|]. apply H in X. lia. }
  unfold p_over. do 2 step; cbn [run ends]; match goal with |- ends ?s _ => let r := eval vm_compute in s in change s with r end; cbn [ends];
    (split; [discriminate|]); (split; [reflexivity|]); intros [|[|[|p]]] o; cbn; destruct o as [|[|[|o]]]; cbn; try lia; auto.
Qed.

(** ** C147: clearing the engine destroys all containers *)
Theorem C147_two_clears_partial : forall addr n p h,
  Forall wf_stmt p -> calm addr (start n) p -> run addr (start n) p = Fine h ->
  exists h1 h2, clear h 0 = Fine h1 /\ clear h1 0 = Fine h2 /\ vars h2 = [] /\ (forall o, objs h2 o = None) /\ forall a, cells h2 a = None.
Proof.
  intros addr n p h W L E. destruct (start_ok n) as (D & S & F). pose proof (run_ok addr p _ _ D S W) as R. rewrite E in R.
  destruct R as (D0 & _ & FF). specialize (FF L F).
  destruct (clear_ok (fun _ => False) h 0 D0 FF) as (m1 & h1 & _ & E1 & _ & D1 & F1 & V1 & Z1 & _); [easy|easy|].
  destruct (clear_ok (fun _ => False) h1 0 D1 F1) as (m2 & h2 & _ & E2 & M2 & D2 & F2 & V2 & Z2 & _ & _ & S2 & _ & A2); [easy|easy|].
  cbn in V1. rewrite V1 in *. cbn in V2, A2.
  assert (N : forall o, objs h2 o = None).
  { intros o. destruct (objs h2 o) as [c|] eqn:O; [|auto]. exfalso. assert (X : objs h2 o <> None) by congruence.
    pose proof (swept _ _ D2 F2 Z2 X) as P. unfold var_refs in P. rewrite V2 in P. cbn in P. apply elem_pos in P. destruct P as [q Q].
    apply (shrink_held _ _ _ _ D2 S2), held_pos in Q. destruct Q as [a [_ Q]]. destruct (is_ref_slot _ _ _ M2 Q) as (s & _ & SL).
    destruct (d_src _ _ _ M2 _ _ _ SL (fun z => z)) as [cq [O1 I1]]. assert (Y : In o (cyc m2)) by (apply (d_cyc _ _ _ M2); exists cq; split; [auto|]; intros Z; rewrite Z in I1; easy).
    apply A2 in Y. lia. }
  exists h1, h2. repeat (split; [auto|]). apply gone_cells; auto.
Qed.
Theorem C147_one_clear_partial : forall addr n p h,
  Forall wf_stmt p -> calm addr (start n) p -> run addr (start n) p = Fine h -> acyclic h ->
  exists h', clear h 0 = Fine h' /\ vars h' = [] /\ (forall o, objs h' o = None) /\ forall a, cells h' a = None.
Proof.
  intros addr n p h W L E [d A]. destruct (start_ok n) as (D & S & F). pose proof (run_ok addr p _ _ D S W) as R. rewrite E in R.
  destruct R as (D0 & _ & FF). specialize (FF L F).
  destruct (clear_ok (fun _ => False) h 0 D0 FF) as (m & h' & _ & E1 & M & D1 & F1 & V1 & Z1 & _ & CL & SH & _ & _); [easy|easy|]. cbn in V1.
  assert (N : forall k o, d o < k -> objs h' o = None).
  { induction k as [|k IH]; intros o K; [lia|]. destruct (objs h' o) as [c|] eqn:O; [|auto]. exfalso. assert (X : objs h' o <> None) by congruence.
    pose proof (swept _ _ D1 F1 Z1 X) as P. unfold var_refs in P. rewrite V1 in P. cbn in P. apply elem_pos in P. destruct P as [q Q].
    assert (Y : objs h' q <> None) by (unfold held_by in Q; destruct (objs h' q); [easy|lia]).
    apply (shrink_held _ _ _ _ D1 SH), (coll_held _ _ _ _ M CL), A in Q. apply Y, IH. lia. }
  assert (N' : forall o, objs h' o = None) by (intros o; apply (N (Datatypes.S (d o))); lia).
  exists h'. repeat (split; [auto|]). apply gone_cells; auto.
Qed.
Example C147_case : ends (run no_addr (start 1) p_nest) (fun h => acyclic h /\ objs h 1 <> None).
Proof.
  vm_compute. split; [|discriminate]. exists (fun x => x). intros [|[|p]] o; try (intros H; exfalso; vm_compute in H; lia).
  destruct o as [|[|o]]; try (intros H; exfalso; vm_compute in H; lia). intros _. lia.
Qed.
(** Containers that hold each other and are all held by variables survive. *)
Theorem C147_survive : forall addr n p h (P : nat -> Prop),
  Forall wf_stmt p -> calm addr (start n) p -> run addr (start n) p = Fine h ->
  (forall o, P o -> 0 < var_refs h o) -> (forall o, P o -> exists q, P q /\ 0 < held_by h q o) ->
  exists h', clear h 0 = Fine h' /\ vars h' = [] /\ forall o, P o -> objs h' o <> None.
Proof.
  intros addr n p h P W L E PV PH. destruct (start_ok n) as (D & S & F). pose proof (run_ok addr p _ _ D S W) as R. rewrite E in R.
  destruct R as (D0 & _ & FF). specialize (FF L F).
  destruct (clear_ok P h 0 D0 FF) as (m & h' & _ & E1 & M & D1 & F1 & V1 & Z1 & _ & CL & SH & K & _); [|exact PV|].
  - intros o Po. destruct (PH o Po) as [q [Q H]]. apply held_pos in H. destruct H as [a [HO H]]. destruct (is_ref_slot _ _ _ D0 H) as (s & X & Y).
    destruct (d_src _ _ _ D0 _ _ _ Y (fun z => z)) as [c [O I]]. exists c, s, a, q. auto.
  - exists h'. cbn in V1. repeat (split; [auto|]). intros o Po. destruct (K o Po) as (c & _ & _ & _ & O & _). congruence.
Qed.
Theorem C147_refuted : forall addr, ends (run addr (start 1) p_self) (fun h => ends (clear h 0) (fun h' => vars h' = [] /\ objs h' 0 <> None)).
Proof. intros addr. unfold p_self. do 2 step. vm_compute. split; [reflexivity|discriminate]. Qed.
(** After [v0[0] = {}] over a container, clearing breaks off or touches freed memory. *)
Theorem C147_refuted_broken : forall addr, ends (run addr (start 1) p_over) (fun h => clear h 0 = Crash \/ clear h 0 = Intern).
Proof. intros addr. unfold p_over. do 2 step; vm_compute; auto. Qed.

(** ** C148: clearing keeps the saved variables *)
Lemma nth_firstn {A} : forall m (l : list A) x, x < m -> nth_error (firstn m l) x = nth_error l x.
Proof. induction m as [|m IH]; intros [|a l] [|x] H; cbn; try lia; auto. apply IH. lia. Qed.
Definition kept_item (h : hp) (v : sval) : sval := match v with SO q => if var_refs h q =? 0 then SU else v | _ => v end.
Theorem C148_saved_exact_partial : forall addr n p h m x o c,
  Forall wf_stmt p -> calm addr (start n) p -> run addr (start n) p = Fine h ->
  x < m -> nth_error (vars h) x = Some (VO o) -> objs h o = Some c ->
  exists h' c', clear h m = Fine h' /\ vars h' = firstn m (vars h) /\ objs h' o = Some c' /\ c_arr c' = c_arr c /\
    shown_items h' (c_cells c') = map (fun i => (fst i, kept_item h (snd i))) (shown_items h (c_cells c)).
Proof.
  intros addr n p h m x o c W L E X NX O. destruct (start_ok n) as (D & S & F). pose proof (run_ok addr p _ _ D S W) as R. rewrite E in R.
  destruct R as (D0 & _ & FF). specialize (FF L F).
  destruct (clear_ok (fun _ => False) h m D0 FF) as (g & h' & _ & E1 & M & D1 & F1 & V1 & Z1 & _ & CL & SH & _ & A); [easy|easy|].
  assert (IV : In (VO o) (vars h')).
  { rewrite V1. apply (nth_error_In _ x). now rewrite nth_firstn. }
  pose proof (d_var _ _ _ D1 _ IV) as AL. cbn in AL. destruct (objs h' o) as [c'|] eqn:O'; [|easy].
  destruct (k_obj _ _ SH _ _ O') as (cg & OG & B1 & B2). destruct (l_obj _ _ CL _ _ O) as (cg' & OG' & B3 & B4).
  assert (cg' = cg) as -> by congruence. exists h', c'. repeat (split; [solve [auto|congruence]|]).
  unfold shown_items. rewrite map_map. rewrite B2, B4. apply map_ext_in. intros [k a] I. cbn [fst snd]. f_equal.
  assert (HA : hold h' [] (Some o) a). { exists c'. split; [auto|]. rewrite B2, B4. apply (in_map snd) in I. exact I. }
  destruct (d_hold _ _ _ D1 _ _ HA) as [v V]. pose proof (k_cel _ _ SH _ _ V) as VG.
  assert (SG : shown_cell h' a = shown_cell g a).
  { unfold shown_cell. rewrite V, VG. destruct v as [| |s]; auto. destruct (d_cell _ _ _ D1 _ _ V (fun z => z)) as [q Q]. now rewrite Q, (k_slo _ _ SH _ _ Q). }
  rewrite SG. destruct (l_cel _ _ CL a) as [EC|(s & q & C0 & S0 & Q0 & C1)].
  - assert (SH0 : shown_cell g a = shown_cell h a).
    { unfold shown_cell. rewrite <- EC, VG. destruct v as [| |s]; auto. destruct (d_cell _ _ _ M _ _ VG (fun z => z)) as [q Q]. now rewrite Q, (l_slo _ _ CL _ _ Q). }
    rewrite SH0. unfold kept_item. destruct (shown_cell h a) as [| |q] eqn:SC; auto. destruct (Nat.eqb_spec (var_refs h q) 0) as [Z|Z]; [|auto]. exfalso.
    assert (R : is_ref g q a = true) by (unfold is_ref; rewrite SH0; apply Nat.eqb_refl). destruct (is_ref_slot _ _ _ M R) as (s & _ & SL).
    destruct (d_src _ _ _ M _ _ _ SL (fun z => z)) as [cq [O1 I1]]. assert (Y : In q (cyc g)) by (apply (d_cyc _ _ _ M); exists cq; split; [auto|]; intros Z'; rewrite Z' in I1; easy).
    apply A in Y. change (orefs (vars h) q) with (var_refs h q) in Y. lia.
  - unfold shown_cell. rewrite C1, C0, S0. cbn. change (orefs (vars h) q) with (var_refs h q) in Q0. now rewrite Q0.
Qed.
Theorem C148_saved_partial : forall addr n p h m x o c,
  Forall wf_stmt p -> calm addr (start n) p -> run addr (start n) p = Fine h ->
  x < m -> nth_error (vars h) x = Some (VO o) -> objs h o = Some c ->
  (forall q, 0 < held_by h o q -> 0 < var_refs h q) ->
  exists h' c', clear h m = Fine h' /\ objs h' o = Some c' /\ shown_items h' (c_cells c') = shown_items h (c_cells c).
Proof.
  intros addr n p h m x o c W L E X NX O H.
  destruct (C148_saved_exact_partial addr n p h m x o c W L E X NX O) as (h' & c' & E1 & _ & O' & _ & I). exists h', c'. repeat (split; [auto|]).
  rewrite I. unfold shown_items. rewrite map_map. apply map_ext_in. intros [k a] K. cbn [fst snd]. f_equal. unfold kept_item.
  destruct (shown_cell h a) as [| |q] eqn:SC; auto. destruct (Nat.eqb_spec (var_refs h q) 0) as [Z|Z]; [|auto]. exfalso.
  assert (0 < held_by h o q); [|apply H in H0; lia]. apply held_pos. exists a. split.
  - exists c. split; [auto|]. apply (in_map snd) in K. exact K.
  - unfold is_ref. rewrite SC. apply Nat.eqb_refl.
Qed.
Example C148_case : ends (run no_addr (start 2) p_case) (fun h => nth_error (vars h) 0 = Some (VO 0) /\ objs h 0 <> None /\
  ends (clear h 1) (fun h' => vars h' = [VO 0] /\ forall c', objs h' 0 = Some c' -> shown_items h' (c_cells c') = [(0, SI 7); (1, SO 3)])).
Proof. vm_compute. repeat split; try discriminate. intros c E. injection E as <-. reflexivity. Qed.
(** [v0 = [[1]]] saved, then cleared: the element is undefined. *)
Theorem C148_refuted : forall addr, ends (run addr (start 1) p_nest) (fun h => forall c, objs h 0 = Some c ->
  shown_items h (c_cells c) = [(0, SO 1)] /\ ends (clear h 1) (fun h' => vars h' = [VO 0] /\
  exists c', objs h' 0 = Some c' /\ shown_items h' (c_cells c') = [(0, SU)] /\ objs h' 1 = None)).
Proof. intros addr. unfold p_nest. step. cbn [run ends]. intros c E. vm_compute in E. injection E as <-. split; [reflexivity|]. vm_compute. split; [reflexivity|]. eexists. repeat split; reflexivity. Qed.

(** ** C149: a slot belongs to an element *)
Theorem C149_slot_of_element : forall addr n p h a s,
  Forall wf_stmt p -> run addr (start n) p = Fine h -> cells h a = Some (CS s) ->
  (exists o, slots h s = Some (Slot (Some o) a) /\ objs h o <> None) /\ forall a', cells h a' = Some (CS s) -> a' = a.
Proof.
  intros addr n p h a s W E A. destruct (start_ok n) as (D & S & F). pose proof (run_ok addr p _ _ D S W) as R. rewrite E in R.
  destruct R as (D' & _ & _). destruct (d_cell _ _ _ D' _ _ A (fun z => z)) as [o O]. split.
  - exists o. split; [auto|]. destruct (d_src _ _ _ D' _ _ _ O (fun z => z)) as [c [X _]]. congruence.
  - intros a' A'. destruct (d_cell _ _ _ D' _ _ A' (fun z => z)) as [o' O']. congruence.
Qed.
Example C149_case : ends (run no_addr (start 2) p_case) (fun h => cells h 4 = Some (CS 3) /\ slots h 3 = Some (Slot (Some 3) 4)).
Proof. vm_compute. repeat split. Qed.
(** [v0[k] = z] over a container: the old slot is destroyed, the new one is left to nobody. *)
Definition owned (h : hp) (s : nat) : Prop := exists a, cells h a = Some (CS s).
Theorem C149_refuted : forall addr z, ends (run addr (start 1) [Set_ (LVar 0) (EPush (ENew true) 0 (ENew false)); Set_ (LIdx (EVar 0) 0) (EInt z)]) (fun h =>
  slots h 1 <> None /\ ~ owned h 1 /\ ends (clear h 0) (fun h' => (forall a, cells h' a = None) /\ slots h' 1 <> None)).
Proof.
  intros addr z. do 2 step. vm_compute. split; [discriminate|]. split; [|split; [|discriminate]].
  - intros [[|[|a]] H]; discriminate.
  - intros [|[|a]]; reflexivity.
Qed.

Print Assumptions C143_no_freed_memory_partial.
Print Assumptions C143_careful_partial.
Print Assumptions C143_outcomes.
Print Assumptions C143_refuted.
Print Assumptions C144_values.
Print Assumptions C144_errors.
Print Assumptions C144_reachable_exists.
Print Assumptions C145_count_partial.
Print Assumptions C145_never_low.
Print Assumptions C145_refuted.
Print Assumptions C146_referenced_partial.
Print Assumptions C146_reachable_partial.
Print Assumptions C146_refuted.
Print Assumptions C147_two_clears_partial.
Print Assumptions C147_one_clear_partial.
Print Assumptions C147_survive.
Print Assumptions C147_refuted.
Print Assumptions C147_refuted_broken.
Print Assumptions C148_saved_exact_partial.
Print Assumptions C148_saved_partial.
Print Assumptions C148_refuted.
Print Assumptions C149_slot_of_element.
Print Assumptions C149_refuted.
