(** Assignments between variables and the passing of arguments. *)
From Coq Require Import List ZArith Bool Lia.
From Verif Require Import Base FloatModel StringModel ValueModel ValueProofs PassModel PassSpec PassProofs.
Import ListNotations.
Local Open Scope Z_scope.

(** ** Small steps *)
Lemma dest_bound s base v d : wf s -> dest s base v = Ok d -> (d < length (vars s))%nat /\ forall j, nth_error (vars s) d <> Some (ERef j).
Proof.
  intros W. unfold dest. destruct (getv s (slot base v)) as [e| | |] eqn:E; try discriminate. apply getv_ok in E.
  pose proof (W _ _ E) as We. pose proof (nth_error_bound _ _ _ E) as B.
  destruct e; intros X; inversion X; subst; try (split; [exact B|intros j; rewrite E; discriminate]).
  destruct We as (L & H). split; [lia|exact H].
Qed.
Lemma reads_load s base l x : wf s -> leaf_ok s l -> reads s base l x ->
  exists e v, load s base l = Ok e /\ source s e /\ deref s e = Ok v /\ value s v = Some x.
Proof.
  intros W K R. destruct l as [w|e]; cbn [reads load] in *.
  - destruct R as (j & Hd & Ho). destruct (dest_bound _ _ _ _ W Hd) as (Bj & Nj). unfold dest in Hd.
    destruct (getv s (slot base w)) as [a| | |] eqn:E; try discriminate. pose proof (proj1 (getv_ok _ _ _) E) as E'.
    unfold obs in Ho. pose proof (W _ _ E') as Wa.
    destruct a; inversion Hd; subst; try rewrite E' in Ho;
      try (eexists; eexists; split; [reflexivity|]; cbn [source deref]; split; [exact I|split; [reflexivity|exact Ho]]).
    + eexists; eexists; split; [reflexivity|]. cbn [source deref]. split; [|split; [reflexivity|exact Ho]].
      destruct Wa as (o & Wa & _). eauto.
    + destruct (nth_error (vars s) j) as [a|] eqn:Ej; [|discriminate].
      exists (EPtr j), a. split; [reflexivity|]. cbn [source deref]. split; [split; [exact Bj|rewrite Ej; exact Nj]|].
      split; [apply getv_ok; exact Ej|exact Ho].
    + discriminate.
  - exists e. cbn [leaf_ok] in K. destruct e; cbn [lit_ok] in K; try contradiction;
      (eexists; split; [reflexivity|]; cbn [source deref]; split; [auto|split; [reflexivity|exact R]]).
    destruct K as (o & K & _). eauto.
Qed.
(** One assignment. *)
Lemma assign_step text s base v l d x : wf s -> leaf_ok s l -> dest s base v = Ok d -> reads s base l x ->
  exists s', exec text base (CSet [v] [RLeaf l]) s = Ok s' /\ obs s' d = Some (keep x) /\
  (forall i, i <> d -> (forall r, nth_error (vars s) d = Some (EStr r) -> nth_error (vars s) i <> Some (EStr r)) -> obs s' i = obs s i) /\
  (forall i, i <> d -> nth_error (vars s') i = nth_error (vars s) i).
Proof.
  intros W K Hd R. destruct (reads_load _ _ _ _ W K R) as (e & v' & El & Se & De & Ev).
  destruct (dest_bound _ _ _ _ W Hd) as (Bd & Nd).
  destruct (nth_error (vars s) d) as [old|] eqn:Eo; [|apply nth_error_None in Eo; lia].
  destruct (store_total s d e old v' W Eo De) as (s' & E).
  { pose proof (deref_source _ _ _ W Se De) as H. destruct v'; auto. cbn in Ev. discriminate. }
  exists s'. split.
  - rewrite exec_set. cbn [evals eval]. rewrite El. cbn [dests]. rewrite Hd. cbn [rev app stores]. rewrite E. reflexivity.
  - destruct (store_wrote _ _ _ _ E) as (v2 & D2 & Hw). rewrite De in D2. inversion D2; subst v2.
    split; [exact (wrote_obs _ _ _ _ _ W Hw Ev)|]. split.
    + intros i Hi Hs. apply (wrote_obs_other _ _ _ _ _ W Hw Hi). intros r Er. rewrite Eo in Er. apply Hs. exact Er.
    + intros i Hi. exact (wrote_other _ _ _ _ _ Hw Hi).
Qed.
Lemma apart_sole s d i r : apart s (length (vars s)) -> i <> d -> nth_error (vars s) d = Some (EStr r) -> nth_error (vars s) i <> Some (EStr r).
Proof.
  intros A Hi Ed Ei. apply Hi. eapply A; [| |exact Ei|exact Ed]; eapply nth_error_bound; eauto.
Qed.

(** ** C101 *)
(** Variables never come to share a string: whatever a program does, distinct variables of
    its frame keep distinct string objects. *)
Theorem C101_no_alias : forall text base body s s', wf s -> Forall (cmd_ok s) body -> apart s (length (vars s)) ->
  run text base body s = Ok s' -> apart s' (length (vars s')) /\ length (vars s') = length (vars s).
Proof.
  intros text base body s s' W K A E. destruct (run_kept _ _ _ _ _ W K E) as (_ & L & _ & H).
  split; [|exact L]. rewrite L. apply H; auto.
Qed.
Print Assumptions C101_no_alias.

(** An assignment stores the value and touches no other variable.  What is missing: texts
    with escapes. *)
Theorem C101_assignment_partial : forall text s base v l d x,
  wf s -> leaf_ok s l -> dest s base v = Ok d -> reads s base l x -> plain x -> sole s d ->
  exists s', exec text base (CSet [v] [RLeaf l]) s = Ok s' /\ obs s' d = Some x /\ forall i, i <> d -> obs s' i = obs s i.
Proof.
  intros text s base v l d x W K Hd R P So. destruct (assign_step text s base v l d x W K Hd R) as (s' & E & O & H & _).
  exists s'. split; [exact E|]. rewrite (keep_plain _ P) in O. split; [exact O|]. intros i Hi. apply H; [exact Hi|].
  intros r Ed Ei. apply Hi. exact (So _ _ Ed Ei).
Qed.
Print Assumptions C101_assignment_partial.

(** A variable whose text has an escape: every assignment from it, also to itself, stores a
    shorter text. *)
Theorem C101_escape_refuted : forall text s base v w d j t a e b,
  wf s -> dest s base v = Ok d -> dest s base w = Ok j -> obs s j = Some (DTxt t) -> t = a ++ 92 :: e :: b ->
  exists s' t', exec text base (CSet [v] [RLeaf (LVar w)]) s = Ok s' /\ obs s' d = Some (DTxt t') /\ (length t' < length t)%nat.
Proof.
  intros text s base v w d j t a e b W Hd Hj Ho Ht.
  destruct (assign_step text s base v (LVar w) d (DTxt t) W I Hd) as (s' & E & O & _). { cbn [reads]. eauto. }
  exists s', (set_text t). split; [exact E|]. split; [exact O|]. subst t. apply set_text_escape.
Qed.
Print Assumptions C101_escape_refuted.

(** a = "hi" (constant 0); b = a; a = 7 with two variables, b first 5 *)
Definition text0 : stk -> list Z := fun _ => [].
Definition s_two : st := St [EU; EI 5] [SO [104; 105] true].
Lemma s_two_wf : wf s_two.
Proof. intros [|[|[|k]]] e H; cbn in H; inversion H; exact I. Qed.
Example C101_case : wf s_two /\ apart s_two 2 /\
  Forall (cmd_ok s_two) [CSet [VGlb 0] [RLeaf (LLit (EStr 0))]; CSet [VGlb 1] [RLeaf (LVar (VGlb 0))]; CSet [VGlb 0] [RLeaf (LLit (EI 7))]] /\
  exists s', run text0 0 [CSet [VGlb 0] [RLeaf (LLit (EStr 0))]; CSet [VGlb 1] [RLeaf (LVar (VGlb 0))]; CSet [VGlb 0] [RLeaf (LLit (EI 7))]] s_two = Ok s' /\
    obs s' 0 = Some (DI 7) /\ obs s' 1 = Some (DTxt [104; 105]).
Proof.
  split; [exact s_two_wf|]. split.
  { intros [|[|i]] j r Hi Hj Ei; cbn in Ei; try discriminate; lia. }
  split; [|eexists; split; [reflexivity|split; reflexivity]].
  repeat constructor; cbn; eauto.
Qed.
Example C101_assignment_case : sole s_two 0 /\ dest s_two 0 (VGlb 0) = Ok 0%nat /\ reads s_two 0 (LVar (VGlb 1)) (DI 5) /\
  reads s_two 0 (LLit (EStr 0)) (DTxt [104; 105]) /\ plain (DTxt [104; 105]).
Proof.
  split; [intros i r H; discriminate|]. split; [reflexivity|]. split; [exists 1%nat; split; reflexivity|]. split; [reflexivity|].
  intros a e b H. destruct a as [|? [|? [|? a]]]; discriminate.
Qed.
(** The text of a is \n: two characters, as r"\n" or "\\n" gives. *)
Example C101_escape_case : let s := St [EStr 0] [SO [92; 110] false] in
  wf s /\ obs s 0 = Some (DTxt [92; 110]) /\
  exists s', exec text0 0 (CSet [VGlb 0] [RLeaf (LVar (VGlb 0))]) s = Ok s' /\ obs s' 0 = Some (DTxt [10]).
Proof.
  split; [|split; [reflexivity|eexists; split; reflexivity]].
  intros [|[|k]] e H; inversion H; subst. cbn. eexists; split; reflexivity.
Qed.

(** ** C37: two strings are not swapped *)
Theorem C37_string_swap_refuted : forall text s base v w d j r q o p,
  dest s base v = Ok d -> dest s base w = Ok j -> nth_error (vars s) d = Some (EStr r) -> nth_error (vars s) j = Some (EStr q) ->
  slot base v = d -> slot base w = j -> r <> q ->
  nth_error (strs s) r = Some (SO o false) -> nth_error (strs s) q = Some (SO p false) -> no_escape o ->
  exists s', exec text base (CSet [v; w] [RLeaf (LVar w); RLeaf (LVar v)]) s = Ok s' /\
  obs s' d = Some (DTxt o) /\ obs s' j = Some (DTxt o).
Proof.
  intros text s base v w d j r q o p Hd Hj Ed Ej Sd Sj Nrq Er Eq No.
  rewrite exec_set. cbn [evals eval load]. rewrite Sd, Sj. unfold getv at 1 2. rewrite Ej, Ed.
  cbn [dests]. rewrite Hd, Hj. cbn [rev app stores].
  pose proof (nth_error_bound _ _ _ Er) as Br. pose proof (nth_error_bound _ _ _ Eq) as Bq.
  assert (So : set_text o = o) by (apply set_text_plain; exact No).
  unfold store at 1. unfold getv. rewrite Ej. unfold gets at 1. rewrite Er. unfold set_str, gets. rewrite Eq. cbn [txt konst vars strs].
  rewrite So. unfold store, getv, gets, set_str. cbn [vars strs]. rewrite Ed.
  assert (Eq' : nth_error (upd (strs s) q (SO o false)) q = Some (SO o false)) by (apply upd_same; exact Bq).
  assert (Er' : nth_error (upd (strs s) q (SO o false)) r = Some (SO o false)) by (rewrite upd_other by auto; exact Er).
  rewrite Eq'. unfold gets. cbn [vars strs txt]. rewrite Er'. cbn [konst txt].
  rewrite So. eexists. split; [reflexivity|]. unfold obs. cbn [vars strs]. rewrite Ed, Ej. cbn [value strs].
  rewrite upd_same by (rewrite upd_length by exact Bq; exact Br).
  rewrite upd_other by (try (rewrite upd_length by exact Bq); auto). rewrite Eq'. split; reflexivity.
Qed.
Print Assumptions C37_string_swap_refuted.
(** var a="A",b="B"; a,b=b,a *)
Example C37_string_swap_case : let s := St [EStr 0; EStr 1] [SO [65] false; SO [66] false] in
  wf s /\ obs s 0 = Some (DTxt [65]) /\ obs s 1 = Some (DTxt [66]) /\
  exists s', exec text0 0 (CSet [VGlb 0; VGlb 1] [RLeaf (LVar (VGlb 1)); RLeaf (LVar (VGlb 0))]) s = Ok s' /\
  obs s' 0 = Some (DTxt [65]) /\ obs s' 1 = Some (DTxt [65]).
Proof.
  split; [|split; [reflexivity|split; [reflexivity|eexists; split; [reflexivity|split; reflexivity]]]].
  intros [|[|[|k]]] e H; inversion H; subst; cbn; eexists; split; reflexivity.
Qed.

(** ** C100 *)
(** Whatever the called function does, with its parameters, other locals and nested calls: a
    variable of the caller that was not passed by reference keeps its value.  What is
    missing: a variable whose string object is an argument, and functions that assign
    globals. *)
Theorem C100_caller_unchanged_partial : forall text base args locals body s s' k,
  wf s -> cmd_ok s (CCall args locals body) -> Forall local_only body -> (k < length (vars s))%nat ->
  ~ passed s base args true k ->
  (forall b d r, passed s base args b d -> nth_error (vars s) d = Some (EStr r) -> nth_error (vars s) k <> Some (EStr r)) ->
  exec text base (CCall args locals body) s = Ok s' -> obs s' k = obs s k.
Proof. intros text. exact (call_isolated text). Qed.
Print Assumptions C100_caller_unchanged_partial.

(** f(x){ x = "lit" } changes the string variable the caller passed by value. *)
Theorem C100_string_argument_refuted : forall text s base v i r o q t locals,
  slot base v = i -> nth_error (vars s) i = Some (EStr r) -> nth_error (strs s) r = Some (SO o false) ->
  nth_error (strs s) q = Some (SO t true) ->
  exists s', exec text base (CCall [(false, RLeaf (LVar v))] locals [CSet [VLoc 0] [RLeaf (LLit (EStr q))]]) s = Ok s' /\
  obs s' i = Some (DTxt (set_text t)).
Proof.
  intros text s base v i r o q t n Si Ei Er Eq. pose proof (nth_error_bound _ _ _ Ei) as Bi. pose proof (nth_error_bound _ _ _ Er) as Br.
  rewrite exec_call. cbn [arg_elems arg_elem]. rewrite Si. unfold getv at 1. rewrite Ei.
  cbn [pass_all]. unfold pass, getv. rewrite Ei. unfold gets. rewrite Er. cbn [konst].
  cbn [run]. rewrite exec_set. cbn [evals eval load]. cbn [dests]. unfold dest, getv. cbn [slot].
  assert (En : nth_error (vars (enter s [EStr r] n)) (length (vars s) + 0) = Some (EStr r)).
  { cbn [enter vars]. rewrite nth_error_app2 by lia. replace (length (vars s) + 0 - length (vars s))%nat with 0%nat by lia. reflexivity. }
  rewrite En. cbn [rev app stores]. unfold store, getv. rewrite En. unfold gets at 1. change (strs (enter s [EStr r] n)) with (strs s). rewrite Eq.
  unfold set_str, gets. change (strs (enter s [EStr r] n)) with (strs s). rewrite Er. cbn [konst txt].
  eexists. split; [reflexivity|]. unfold obs. cbn [leave vars strs]. rewrite nth_error_firstn by exact Bi.
  rewrite enter_old by exact Bi. rewrite Ei. cbn [value leave strs]. rewrite upd_same by exact Br. reflexivity.
Qed.
Print Assumptions C100_string_argument_refuted.

(** A reference parameter passed on by value stays a reference: inside a function with the
    reference parameter x, the call g(x, ref x, ref y) with g(v, ref w, ref z){ w = lit; z = v }
    gives y the literal, not the value x had when it was passed. *)
Theorem C100_forwarded_reference_refuted : forall text s base x y d j lit,
  wf s -> nth_error (vars s) (slot base x) = Some (ERef d) -> slot base y = j ->
  (exists e, nth_error (vars s) j = Some e /\ match e with ERef _ | EStr _ => False | _ => True end) -> d <> j ->
  match lit with EI _ | EF _ | EB _ | EN => True | _ => False end ->
  exists s', exec text base (CCall [(false, RLeaf (LVar x)); (true, RLeaf (LVar x)); (true, RLeaf (LVar y))] 0
    [CSet [VLoc 1] [RLeaf (LLit lit)]; CSet [VLoc 2] [RLeaf (LVar (VLoc 0))]]) s = Ok s' /\ nth_error (vars s') j = Some lit.
Proof.
  intros text s base x y d j lit W Ex Sy (e & Ey & He) Ndj Hl.
  destruct (W _ _ Ex) as (Bd & _). pose proof (nth_error_bound _ _ _ Ex) as Bx. pose proof (nth_error_bound _ _ _ Ey) as By.
  assert (Bd' : (d < length (vars s))%nat) by lia.
  set (n := length (vars s)) in *. set (s3 := enter s [EPtr d; ERef d; ERef j] 0).
  assert (E0 : nth_error (vars s3) (n + 0) = Some (EPtr d)).
  { cbn [s3 enter vars]. rewrite nth_error_app2 by (unfold n; lia). replace (n + 0 - length (vars s))%nat with 0%nat by (unfold n; lia). reflexivity. }
  assert (E1 : nth_error (vars s3) (n + 1) = Some (ERef d)).
  { cbn [s3 enter vars]. rewrite nth_error_app2 by (unfold n; lia). replace (n + 1 - length (vars s))%nat with 1%nat by (unfold n; lia). reflexivity. }
  assert (E2 : nth_error (vars s3) (n + 2) = Some (ERef j)).
  { cbn [s3 enter vars]. rewrite nth_error_app2 by (unfold n; lia). replace (n + 2 - length (vars s))%nat with 2%nat by (unfold n; lia). reflexivity. }
  assert (L3 : (n + 2 < length (vars s3))%nat) by (apply nth_error_bound in E2; exact E2).
  destruct (nth_error (vars s3) d) as [old|] eqn:Ed; [|apply nth_error_None in Ed; lia].
  set (s4 := setv s3 d lit).
  assert (S1 : store s3 d lit = Ok s4). { unfold store, getv. rewrite Ed. destruct lit; try contradiction; reflexivity. }
  assert (Oth : forall i, i <> d -> nth_error (vars s4) i = nth_error (vars s3) i).
  { intros i Hi. cbn [s4 setv vars]. apply upd_other; [lia|auto]. }
  assert (Same : nth_error (vars s4) d = Some lit) by (cbn [s4 setv vars]; apply upd_same; lia).
  assert (L4 : length (vars s4) = length (vars s3)) by (cbn [s4 setv vars]; apply upd_length; lia).
  set (s5 := setv s4 j lit).
  assert (S2 : store s4 j (EPtr d) = Ok s5).
  { unfold store, getv. rewrite Oth by auto. unfold s3 at 1. rewrite enter_old by exact By. rewrite Ey, Same. destruct lit; try contradiction; reflexivity. }
  exists (leave n s5). split.
  - assert (Ax : arg_elem text s base (RLeaf (LVar x)) = Ok (s, ERef d)) by (cbn [arg_elem]; unfold getv; rewrite Ex; reflexivity).
    assert (Ay : arg_elem text s base (RLeaf (LVar y)) = Ok (s, EPtr j)).
    { cbn [arg_elem]. unfold getv. rewrite Sy, Ey. destruct e; auto; contradiction. }
    rewrite exec_call. cbn [arg_elems]. rewrite !Ax, !Ay.
    cbn [pass_all pass]. fold n. fold s3. cbn [run]. rewrite exec_set. cbn [evals eval load dests]. unfold dest at 1. unfold getv. cbn [slot].
    rewrite E1. cbn [rev app stores]. rewrite S1. rewrite exec_set. cbn [evals eval load dests]. unfold dest, getv. cbn [slot].
    rewrite (Oth (n + 0)%nat) by lia. rewrite E0. rewrite (Oth (n + 2)%nat) by lia. rewrite E2. cbn [rev app stores]. rewrite S2. reflexivity.
  - cbn [leave vars]. rewrite nth_error_firstn by exact By. cbn [s5 setv vars]. apply upd_same. lia.
Qed.
Print Assumptions C100_forwarded_reference_refuted.

(** x = 5, s = "A", t = "B"; f(a, b, ref c){ a = 6; b = 1; c = "L" } called with x, s, t *)
Definition s_call : st := St [EI 5; EStr 0; EStr 1] [SO [65] false; SO [66] false; SO [76] true].
Definition c_call : cmd := CCall [(false, RLeaf (LVar (VGlb 0))); (false, RLeaf (LVar (VGlb 1))); (true, RLeaf (LVar (VGlb 2)))] 1
  [CSet [VLoc 0] [RLeaf (LLit (EI 6))]; CSet [VLoc 1] [RLeaf (LLit (EI 1))]; CSet [VLoc 2] [RLeaf (LLit (EStr 2))]].
Example C100_case : wf s_call /\ cmd_ok s_call c_call /\ Forall local_only [CSet [VLoc 0] [RLeaf (LLit (EI 6))]; CSet [VLoc 1] [RLeaf (LLit (EI 1))]; CSet [VLoc 2] [RLeaf (LLit (EStr 2))]] /\
  exists s', exec text0 0 c_call s_call = Ok s' /\ obs s' 0 = Some (DI 5) /\ obs s' 1 = Some (DTxt [65]) /\ obs s' 2 = Some (DTxt [76]).
Proof.
  split. { intros [|[|[|[|k]]]] e H; inversion H; subst; cbn; eauto. }
  split. { cbn. repeat split; repeat constructor. cbn. eauto. }
  split; [repeat constructor|]. eexists. split; [reflexivity|repeat split].
Qed.
Example C100_passed_case : ~ passed s_call 0 [(false, RLeaf (LVar (VGlb 0))); (false, RLeaf (LVar (VGlb 1))); (true, RLeaf (LVar (VGlb 2)))] true 0 /\
  passed s_call 0 [(false, RLeaf (LVar (VGlb 0))); (false, RLeaf (LVar (VGlb 1))); (true, RLeaf (LVar (VGlb 2)))] true 2.
Proof.
  split.
  - intros (v & H & D). destruct H as [H|[H|[H|[]]]]; inversion H; subst. discriminate.
  - exists (VGlb 2). split; [right; right; left; reflexivity|reflexivity].
Qed.
(** f(b){ b = "L" } called with s *)
Example C100_string_argument_case :
  exists s', exec text0 0 (CCall [(false, RLeaf (LVar (VGlb 1)))] 0 [CSet [VLoc 0] [RLeaf (LLit (EStr 2))]]) s_call = Ok s' /\ obs s' 1 = Some (DTxt [76]).
Proof. eexists; split; reflexivity. Qed.

(** ** C102 *)
Definition ext (s : st) (l : list elem) : st := St (vars s ++ l) (strs s).
Lemma upd_app {A} (l m : list A) i x : (i < length l)%nat -> upd (l ++ m) i x = upd l i x ++ m.
Proof.
  intros H. unfold upd. rewrite firstn_app, skipn_app. replace (i - length l)%nat with 0%nat by lia.
  replace (S i - length l)%nat with 0%nat by lia. cbn [firstn skipn]. rewrite app_nil_r, <- app_assoc. reflexivity.
Qed.
Lemma store_ext s l d e : (d < length (vars s))%nat -> match e with EPtr j => (j < length (vars s))%nat | _ => True end ->
  store (ext s l) d e = match store s d e with Ok s' => Ok (ext s' l) | Thr => Thr | UB => UB | Loop => Loop end.
Proof.
  intros Bd Be. unfold store, getv. cbn [ext vars]. rewrite nth_error_app1 by exact Bd.
  destruct (nth_error (vars s) d) as [old|] eqn:Eo; [|reflexivity].
  assert (D : match e with EPtr j => match nth_error (vars s ++ l) j with Some e0 => Ok e0 | None => UB end | _ => Ok e end =
    match e with EPtr j => match nth_error (vars s) j with Some e0 => Ok e0 | None => UB end | _ => Ok e end).
  { destruct e; auto. now rewrite nth_error_app1 by exact Be. }
  rewrite D. clear D.
  destruct (match e with EPtr j => match nth_error (vars s) j with Some e0 => Ok e0 | None => UB end | _ => Ok e end) as [v| | |]; try reflexivity.
  assert (Sv : forall x t, setv (St (vars s ++ l) t) d x = ext (setv (St (vars s) t) d x) l).
  { intros x t. unfold setv, ext. cbn [vars strs]. rewrite upd_app by exact Bd. reflexivity. }
  destruct v; try reflexivity; try (unfold ext at 1; rewrite Sv; destruct s; reflexivity).
  unfold gets. cbn [ext strs]. destruct (nth_error (strs s) r) as [o|]; [|reflexivity].
  destruct old; try (unfold new_str; cbn [ext vars strs]; rewrite Sv; reflexivity).
  unfold set_str, gets. cbn [ext strs vars]. destruct (nth_error (strs s) r0); reflexivity.
Qed.

(** Calling f(ref x){ x = e }, where e is a literal or a global, with the variable v does
    exactly what v = e does. *)
Theorem C102_reference_assignment : forall text s base v l locals,
  wf s -> leaf_ok s l -> match l with LVar (VLoc _) => False | _ => True end ->
  (exists d x, dest s base v = Ok d /\ reads s base l x) ->
  exec text base (CCall [(true, RLeaf (LVar v))] locals [CSet [VLoc 0] [RLeaf l]]) s = exec text base (CSet [v] [RLeaf l]) s.
Proof.
  intros text s base v l n W K Hl (d & x & Hd & R).
  destruct (reads_load _ _ _ _ W K R) as (e & v' & El & Se & De & Ev). destruct (dest_bound _ _ _ _ W Hd) as (Bd & Nd).
  assert (A : arg_elem text s base (RLeaf (LVar v)) = Ok (s, EPtr d) \/ arg_elem text s base (RLeaf (LVar v)) = Ok (s, ERef d)).
  { cbn [arg_elem]. unfold dest in Hd. destruct (getv s (slot base v)) as [a| | |]; try discriminate.
    destruct a; inversion Hd; subst; auto. }
  set (l1 := [ERef d] ++ repeat EU n).
  assert (E0 : nth_error (vars (ext s l1)) (length (vars s) + 0) = Some (ERef d)).
  { cbn [ext vars]. rewrite nth_error_app2 by lia. replace (length (vars s) + 0 - length (vars s))%nat with 0%nat by lia. reflexivity. }
  assert (El' : load (ext s l1) (length (vars s)) l = Ok e).
  { destruct l as [[i|i]|]; [contradiction| |exact El]. cbn [load slot] in *. unfold getv in *. cbn [ext vars].
    destruct (nth_error (vars s) i) as [a|] eqn:Ei; [|discriminate]. rewrite nth_error_app1 by (apply nth_error_bound in Ei; exact Ei).
    rewrite Ei. exact El. }
  rewrite exec_call. cbn [arg_elems].
  assert (P : match arg_elem text s base (RLeaf (LVar v)) with
     | Ok (s1, e) => match pass_all s1 [(true, RLeaf (LVar v))] [e] with Ok (s2, ps) => Ok (s2, ps) | Thr => Thr | UB => UB | Loop => Loop end
     | Thr => Thr | UB => UB | Loop => Loop end = Ok (s, [ERef d])).
  { destruct A as [-> | ->]; reflexivity. }
  destruct (arg_elem text s base (RLeaf (LVar v))) as [[s1 a]| | |]; try discriminate.
  destruct (pass_all s1 [(true, RLeaf (LVar v))] [a]) as [[s2 ps]| | |]; try discriminate. inversion P; subst s2 ps.
  replace (enter s [ERef d] n) with (ext s l1) by (unfold enter, ext, l1; reflexivity).
  cbn [run]. rewrite !exec_set. cbn [evals eval]. rewrite El, El'. cbn [dests]. rewrite Hd. unfold dest, getv. cbn [slot]. rewrite E0.
  cbn [rev app stores].
  rewrite store_ext; [|exact Bd|destruct e; auto; apply Se].
  destruct (store s d e) as [s'| | |] eqn:Es; try reflexivity.
  unfold leave, ext. cbn [vars strs].
  pose proof (store_kept _ _ _ _ W Se Es) as (_ & L & _). rewrite <- L. rewrite firstn_app, Nat.sub_diag, firstn_all, app_nil_r.
  destruct s'; reflexivity.
Qed.
Print Assumptions C102_reference_assignment.

(** An argument for a reference parameter that is no variable is refused. *)
Theorem C102_not_variable : forall text s base r locals body s',
  rhs_ok s r -> (forall v, r <> RLeaf (LVar v)) -> exec text base (CCall [(true, r)] locals body) s <> Ok s'.
Proof.
  intros text s base r n body s' K Nv. rewrite exec_call. cbn [arg_elems].
  destruct (arg_elem text s base r) as [[s1 e]| | |] eqn:E; try discriminate.
  assert (H : match e with ERef _ | EPtr _ => False | _ => True end).
  { destruct r as [[v|l]|o a b]; [destruct (Nv v eq_refl)| |].
    - cbn in E. inversion E; subst. cbn in K. destruct e; auto.
    - unfold arg_elem, eval in E. destruct (load s base a); try discriminate. destruct (load s base b); try discriminate.
      apply pushed_spec in E. destruct E as (_ & E). destruct e; auto. }
  cbn [pass_all]. unfold pass. destruct e; try contradiction; discriminate.
Qed.
Print Assumptions C102_not_variable.

(** function swap(ref a, ref b){ var t=a; a=b; b=t } *)
Definition swap_body : list cmd :=
  [CSet [VLoc 2] [RLeaf (LVar (VLoc 0))]; CSet [VLoc 0] [RLeaf (LVar (VLoc 1))]; CSet [VLoc 1] [RLeaf (LVar (VLoc 2))]].
(** The documented swap exchanges any two variables with plain values and changes no other.
    What is missing: texts with escapes. *)
Theorem C102_swap_partial : forall text s base v w d j x y,
  wf s -> apart s (length (vars s)) -> dest s base v = Ok d -> dest s base w = Ok j -> d <> j ->
  obs s d = Some x -> obs s j = Some y -> plain x -> plain y ->
  exists s', exec text base (CCall [(true, RLeaf (LVar v)); (true, RLeaf (LVar w))] 1 swap_body) s = Ok s' /\
  obs s' d = Some y /\ obs s' j = Some x /\ forall i, (i < length (vars s))%nat -> i <> d -> i <> j -> obs s' i = obs s i.
Proof.
  intros text s base v w d j x y W A Hd Hj Ndj Ox Oy Px Py.
  destruct (dest_bound _ _ _ _ W Hd) as (Bd & Nd). destruct (dest_bound _ _ _ _ W Hj) as (Bj & Nj).
  set (n := length (vars s)) in *. set (s1 := enter s [ERef d; ERef j] 1).
  assert (AE : forall u k, dest s base u = Ok k -> exists a, arg_elem text s base (RLeaf (LVar u)) = Ok (s, a) /\ pass s true a = Ok (s, ERef k)).
  { intros u k Hu. cbn [arg_elem]. unfold dest in Hu. destruct (getv s (slot base u)) as [a| | |]; try discriminate.
    destruct a; inversion Hu; subst; eexists; split; reflexivity. }
  destruct (AE _ _ Hd) as (a1 & A1 & P1). destruct (AE _ _ Hj) as (a2 & A2 & P2).
  assert (N0 : nth_error (vars s1) (n + 0) = Some (ERef d)).
  { cbn [s1 enter vars]. rewrite nth_error_app2 by (unfold n; lia). replace (n + 0 - length (vars s))%nat with 0%nat by (unfold n; lia). reflexivity. }
  assert (N1 : nth_error (vars s1) (n + 1) = Some (ERef j)).
  { cbn [s1 enter vars]. rewrite nth_error_app2 by (unfold n; lia). replace (n + 1 - length (vars s))%nat with 1%nat by (unfold n; lia). reflexivity. }
  assert (N2 : nth_error (vars s1) (n + 2) = Some EU).
  { cbn [s1 enter vars]. rewrite nth_error_app2 by (unfold n; lia). replace (n + 2 - length (vars s))%nat with 2%nat by (unfold n; lia). reflexivity. }
  assert (L1 : length (vars s1) = (n + 3)%nat) by (cbn [s1 enter vars]; rewrite app_length; reflexivity).
  assert (W1 : wf s1).
  { apply enter_wf; [exact W|]. constructor; [split; [exact Bd|exact Nd]|]. constructor; [split; [exact Bj|exact Nj]|constructor]. }
  assert (Ap1 : apart s1 (length (vars s1))).
  { intros i k r Hi Hk Ei Ek.
    assert (Old : forall i, nth_error (vars s1) i = Some (EStr r) -> (i < n)%nat /\ nth_error (vars s) i = Some (EStr r)).
    { intros z Hz. destruct (Nat.lt_ge_cases z n) as [B|B].
      - split; [exact B|]. unfold s1 in Hz. rewrite enter_old in Hz by exact B. exact Hz.
      - unfold s1 in Hz. destruct (enter_new _ _ _ _ _ B Hz) as [[H|[H|[]]]|H]; discriminate. }
    destruct (Old _ Ei) as (B1 & F1). destruct (Old _ Ek) as (B2 & F2). eapply A; eauto. }
  assert (O1 : forall i, (i < n)%nat -> obs s1 i = obs s i).
  { intros i Hi. unfold obs, s1. rewrite enter_old by exact Hi. reflexivity. }
  assert (Step : forall t u l k z, wf t -> apart t (length (vars t)) -> leaf_ok t l -> dest t n u = Ok k -> reads t n l z -> plain z ->
    exists t', exec text n (CSet [u] [RLeaf l]) t = Ok t' /\ wf t' /\ apart t' (length (vars t')) /\ length (vars t') = length (vars t) /\
      obs t' k = Some z /\ (forall i, i <> k -> obs t' i = obs t i) /\ (forall i, i <> k -> nth_error (vars t') i = nth_error (vars t) i)).
  { intros t u l k z Wt At Kl Hk Rz Pz. destruct (assign_step text t n u l k z Wt Kl Hk Rz) as (t' & E & O & H & Hv).
    exists t'. split; [exact E|]. destruct (exec_kept text (CSet [u] [RLeaf l]) n t t' Wt) as (Wt' & Lt & _ & Ht); [repeat constructor; exact Kl|exact E|].
    split; [exact Wt'|]. split; [rewrite Lt; apply Ht; auto|]. split; [exact Lt|]. rewrite (keep_plain _ Pz) in O. split; [exact O|]. split; [|exact Hv].
    intros i Hi. apply H; [exact Hi|]. intros r Er. eapply apart_sole; eauto. }
  destruct (Step s1 (VLoc 2) (LVar (VLoc 0)) (n + 2)%nat x W1 Ap1 I) as (t1 & E1 & Wt1 & At1 & Lt1 & Ot1 & Oo1 & V1); auto.
  { unfold dest, getv. cbn [slot]. rewrite N2. reflexivity. }
  { cbn [reads]. exists d. split; [unfold dest, getv; cbn [slot]; rewrite N0; reflexivity|]. rewrite O1 by exact Bd. exact Ox. }
  destruct (Step t1 (VLoc 0) (LVar (VLoc 1)) d y Wt1 At1 I) as (t2 & E2 & Wt2 & At2 & Lt2 & Ot2 & Oo2 & V2); auto.
  { unfold dest, getv. cbn [slot]. rewrite V1 by lia. rewrite N0. reflexivity. }
  { cbn [reads]. exists j. split; [unfold dest, getv; cbn [slot]; rewrite V1 by lia; rewrite N1; reflexivity|].
    rewrite Oo1 by lia. rewrite O1 by exact Bj. exact Oy. }
  assert (M2 : obs t2 (n + 2) = Some x) by (rewrite Oo2 by lia; exact Ot1).
  destruct (Step t2 (VLoc 1) (LVar (VLoc 2)) j x Wt2 At2 I) as (t3 & E3 & Wt3 & At3 & Lt3 & Ot3 & Oo3 & V3); auto.
  { unfold dest, getv. cbn [slot]. rewrite V2 by lia. rewrite V1 by lia. rewrite N1. reflexivity. }
  { cbn [reads]. exists (n + 2)%nat. split; [|exact M2].
    unfold dest, getv. cbn [slot]. unfold obs in M2. destruct (nth_error (vars t2) (n + 2)) as [a|]; [|discriminate].
    destruct a; try reflexivity. discriminate. }
  exists (leave n t3). split.
  - rewrite exec_call. cbn [arg_elems]. rewrite A1, A2. cbn [pass_all]. rewrite P1, P2. fold n. fold s1. cbn [swap_body run].
    rewrite E1, E2, E3. reflexivity.
  - assert (Ol : forall i, (i < n)%nat -> obs (leave n t3) i = obs t3 i).
    { intros i Hi. unfold obs. cbn [leave vars]. rewrite nth_error_firstn by exact Hi. reflexivity. }
    split; [rewrite Ol, Oo3 by auto; exact Ot2|]. split; [rewrite Ol by exact Bj; exact Ot3|].
    intros i Hi Hid Hij. rewrite Ol by exact Hi. rewrite Oo3 by exact Hij. rewrite Oo2 by exact Hid. rewrite Oo1 by lia. apply O1. exact Hi.
Qed.
Print Assumptions C102_swap_partial.

(** A reference parameter cannot be an operand: f(ref x){ x = x op 1 } stops with an error,
    whatever variable it is called with. *)
Theorem C102_operand_refuted : forall text s base v d locals z o,
  wf s -> dest s base v = Ok d -> o = BAdd \/ o = BSub \/ o = BMul ->
  exec text base (CCall [(true, RLeaf (LVar v))] locals [CSet [VLoc 0] [ROp o (LVar (VLoc 0)) (LLit (EI z))]]) s = Thr.
Proof.
  intros text s base v d n z o W Hd Ho.
  assert (P : exists a, arg_elem text s base (RLeaf (LVar v)) = Ok (s, a) /\ pass s true a = Ok (s, ERef d)).
  { cbn [arg_elem]. unfold dest in Hd. destruct (getv s (slot base v)) as [a| | |]; try discriminate.
    destruct a; inversion Hd; subst; eexists; split; reflexivity. }
  destruct P as (a & A1 & P1). rewrite exec_call. cbn [arg_elems]. rewrite A1. cbn [pass_all]. rewrite P1.
  set (s1 := enter s [ERef d] n).
  assert (N0 : nth_error (vars s1) (length (vars s) + 0) = Some (ERef d)).
  { cbn [s1 enter vars]. rewrite nth_error_app2 by lia. replace (length (vars s) + 0 - length (vars s))%nat with 0%nat by lia. reflexivity. }
  cbn [run]. rewrite exec_set. cbn [evals eval load]. unfold getv. cbn [slot]. rewrite N0.
  destruct Ho as [-> |[-> | ->]]; reflexivity.
Qed.
Print Assumptions C102_operand_refuted.

(** swap(s, t) on the strings of [s_call]; f(ref x){ x = 6 }(x) *)
Example C102_swap_case : apart s_call 3 /\
  exists s', exec text0 0 (CCall [(true, RLeaf (LVar (VGlb 1))); (true, RLeaf (LVar (VGlb 2)))] 1 swap_body) s_call = Ok s' /\
  obs s' 0 = Some (DI 5) /\ obs s' 1 = Some (DTxt [66]) /\ obs s' 2 = Some (DTxt [65]).
Proof.
  split; [|eexists; split; [reflexivity|repeat split]].
  intros [|[|[|i]]] [|[|[|j]]] r Hi Hj Ei Ej; cbn in *; try congruence; try lia.
Qed.
Example C102_reference_case : dest s_call 0 (VGlb 0) = Ok 0%nat /\ reads s_call 0 (LLit (EI 6)) (DI 6) /\
  exists s', exec text0 0 (CCall [(true, RLeaf (LVar (VGlb 0)))] 0 [CSet [VLoc 0] [RLeaf (LLit (EI 6))]]) s_call = Ok s' /\ obs s' 0 = Some (DI 6).
Proof. split; [reflexivity|]. split; [reflexivity|]. eexists; split; reflexivity. Qed.
Example C102_not_variable_case : rhs_ok s_call (ROp BAdd (LVar (VGlb 0)) (LLit (EI 1))) /\
  exec text0 0 (CCall [(true, ROp BAdd (LVar (VGlb 0)) (LLit (EI 1)))] 0 []) s_call = Thr.
Proof. split; [cbn; auto|reflexivity]. Qed.
Example C102_operand_case :
  exec text0 0 (CCall [(true, RLeaf (LVar (VGlb 0)))] 0 [CSet [VLoc 0] [ROp BAdd (LVar (VLoc 0)) (LLit (EI 1))]]) s_call = Thr.
Proof. reflexivity. Qed.
