From Coq Require Import List ZArith Bool Lia Arith.
From Verif Require Import Base StringModel StringProofs ValueModel ValueProofs PassModel PassSpec.
Import ListNotations.
Local Open Scope Z_scope.

(** The text a string object keeps is the result of String::unescape on its buffer. *)
Lemma set_text_unesc : forall n l, (length l <= n)%nat -> set_text l = unesc (S n) l.
Proof.
  induction n as [|n IH]; intros l Hl; [destruct l; [reflexivity|cbn in Hl; lia]|].
  destruct l as [|c [|e r]]; [reflexivity|reflexivity|]. rewrite set_text_two.
  change (unesc (S (S n)) (c :: e :: r)) with
    (if c =? 92 then (if e =? 92 then [92] else if e =? 110 then [10] else if e =? 116 then [9]
           else if e =? 34 then [34] else if e =? 39 then [39] else []) ++ unesc (S n) r else c :: unesc (S n) (e :: r)).
  rewrite <- (IH r), <- (IH (e :: r)) by (cbn in *; lia). reflexivity.
Qed.
Lemma set_text_is_unescape s l : srep s l -> exists r, s_unescape s = Ok r /\ srep r (set_text l).
Proof. intros H. rewrite (set_text_unesc (length l) l) by lia. apply unescape_ok. exact H. Qed.

(** ** Lists *)
Lemma upd_same {A} (l : list A) i x : (i < length l)%nat -> nth_error (upd l i x) i = Some x.
Proof.
  intros H. unfold upd. rewrite nth_error_app2; rewrite firstn_length_le by lia; [|lia].
  rewrite Nat.sub_diag. reflexivity.
Qed.
Lemma upd_other {A} (l : list A) i j x : (i < length l)%nat -> i <> j -> nth_error (upd l i x) j = nth_error l j.
Proof.
  intros H N. unfold upd. destruct (Nat.lt_ge_cases j i) as [L|L].
  - rewrite nth_error_app1 by (rewrite firstn_length_le; lia).
    rewrite <- (firstn_skipn i l) at 2. rewrite nth_error_app1 by (rewrite firstn_length_le; lia). reflexivity.
  - rewrite nth_error_app2 by (rewrite firstn_length_le; lia). rewrite firstn_length_le by lia.
    destruct (j - i)%nat as [|d] eqn:D; [lia|]. cbn [nth_error].
    rewrite <- (firstn_skipn (S i) l) at 2. rewrite nth_error_app2 by (rewrite firstn_length_le; lia).
    rewrite firstn_length_le by lia. f_equal. lia.
Qed.
Lemma upd_length {A} (l : list A) i x : (i < length l)%nat -> length (upd l i x) = length l.
Proof. intros H. unfold upd. rewrite app_length, firstn_length_le, <- (firstn_skipn (S i) l) by lia.
  cbn [length]. rewrite app_length, firstn_length_le by lia. rewrite firstn_skipn. lia. Qed.
Lemma nth_error_bound {A} (l : list A) i x : nth_error l i = Some x -> (i < length l)%nat.
Proof. intros H. apply nth_error_Some. rewrite H. discriminate. Qed.
Lemma nth_error_firstn {A} (l : list A) n i : (i < n)%nat -> nth_error (firstn n l) i = nth_error l i.
Proof. revert l i. induction n as [|n IH]; intros [|x l] [|i] H; try lia; try reflexivity. cbn. apply IH. lia. Qed.
Lemma nth_error_firstn_out {A} (l : list A) n i : (n <= i)%nat -> nth_error (firstn n l) i = None.
Proof. intros H. apply nth_error_None. rewrite firstn_length. lia. Qed.

Lemma getv_ok s i e : getv s i = Ok e <-> nth_error (vars s) i = Some e.
Proof. unfold getv. destruct (nth_error (vars s) i); split; intros H; inversion H; reflexivity. Qed.
Lemma gets_ok s r o : gets s r = Ok o <-> nth_error (strs s) r = Some o.
Proof. unfold gets. destruct (nth_error (strs s) r); split; intros H; inversion H; reflexivity. Qed.

(** ** Evaluation only creates string objects *)
Definition grows (s s' : st) : Prop :=
  vars s' = vars s /\ exists more, strs s' = strs s ++ more /\ Forall (fun o => konst o = false) more.
Lemma grows_refl s : grows s s.
Proof. split; [reflexivity|]. exists []. rewrite app_nil_r. auto. Qed.
Lemma grows_trans a b c : grows a b -> grows b c -> grows a c.
Proof.
  intros (V1 & m1 & E1 & F1) (V2 & m2 & E2 & F2). split; [congruence|]. exists (m1 ++ m2).
  rewrite E2, E1, app_assoc. split; [reflexivity|]. apply Forall_app. auto.
Qed.
Lemma grows_str s s' r o : grows s s' -> nth_error (strs s) r = Some o -> nth_error (strs s') r = Some o.
Proof. intros (_ & m & -> & _) H. rewrite nth_error_app1; [exact H|]. eapply nth_error_bound; eauto. Qed.
Lemma grows_old s s' r o : grows s s' -> nth_error (strs s') r = Some o ->
  nth_error (strs s) r = Some o \/ ((length (strs s) <= r)%nat /\ konst o = false).
Proof.
  intros (_ & m & E & F) H. rewrite E in H. destruct (Nat.lt_ge_cases r (length (strs s))) as [L|L].
  - rewrite nth_error_app1 in H by lia. auto.
  - rewrite nth_error_app2 in H by lia. right. split; [exact L|]. rewrite Forall_forall in F. apply F. eapply nth_error_In; eauto.
Qed.
Lemma grows_value s s' e : grows s s' -> value s e <> None -> value s' e = value s e.
Proof.
  intros G H. destruct e; try reflexivity. cbn [value] in *.
  destruct (nth_error (strs s) r) as [o|] eqn:E; [|congruence]. now rewrite (grows_str _ _ _ _ G E).
Qed.
Lemma grows_wf s s' : grows s s' -> wf s -> wf s'.
Proof.
  intros G W k e H. pose proof G as (V & _). rewrite V in H. specialize (W k e H). destruct e; cbn [wf_elem] in *; auto.
  - destruct W as (o & E & K). exists o. split; [eapply grows_str; eauto|exact K].
  - rewrite V. exact W.
  - rewrite V. exact W.
Qed.
Lemma grows_obs s s' i : grows s s' -> wf s -> obs s' i = obs s i.
Proof.
  intros G W. unfold obs. pose proof G as (V & _). rewrite V.
  destruct (nth_error (vars s) i) as [e|] eqn:E; [|reflexivity].
  destruct (value s e) eqn:Ev.
  - rewrite (grows_value _ _ _ G) by congruence. exact Ev.
  - specialize (W _ _ E). destruct e; cbn [value wf_elem] in *; try discriminate; try reflexivity.
    destruct W as (o & E2 & _). rewrite E2 in Ev. discriminate.
Qed.
Lemma grows_lit s s' e : grows s s' -> lit_ok s e -> lit_ok s' e.
Proof. intros G. destruct e; cbn; auto. intros (o & E & K). exists o. split; [eapply grows_str; eauto|exact K]. Qed.
Lemma new_str_grows s t s' n : new_str s t = (s', n) ->
  grows s s' /\ n = length (strs s) /\ nth_error (strs s') n = Some (SO (set_text t) false).
Proof.
  intros E. unfold new_str in E. inversion E; subst. split; [|split; [reflexivity|]].
  - split; [reflexivity|]. eexists. split; [reflexivity|]. repeat constructor.
  - cbn [strs]. rewrite nth_error_app2, Nat.sub_diag by lia. reflexivity.
Qed.

Section Run.
Variable text : stk -> list Z.
Notation eval := (eval text).
Notation evals := (evals text).
Notation arg_elem := (arg_elem text).
Notation arg_elems := (arg_elems text).
Notation exec := (exec text).
Notation run := (run text).

(** An element an operator or a literal leaves on the stack. *)
Definition temp (s : st) (e : elem) : Prop :=
  match e with ERef _ | EPtr _ => False | EStr r => exists o, nth_error (strs s) r = Some o | _ => True end.

Lemma pushed_spec s r s' e : pushed s r = Ok (s', e) -> grows s s' /\
  match e with EI _ | EF _ | EB _ => True | EStr n => n = length (strs s) /\ exists t, nth_error (strs s') n = Some (SO t false) | _ => False end.
Proof.
  unfold pushed. destruct r as [k|t| | | | |]; try discriminate.
  - repeat match goal with |- context [if ?x then _ else _] => destruct x end; try discriminate;
      intros E; inversion E; subst; split; auto using grows_refl.
  - intros E; inversion E; subst. split.
    + split; [reflexivity|]. eexists. split; [reflexivity|]. repeat constructor.
    + split; [reflexivity|]. exists t. cbn [strs]. rewrite nth_error_app2, Nat.sub_diag by lia. reflexivity.
Qed.

Lemma eval_grows s base r s' e : eval s base r = Ok (s', e) -> grows s s'.
Proof.
  destruct r as [l|o a b]; cbn [PassModel.eval].
  - destruct (load s base l); try discriminate. intros E; inversion E; subst. apply grows_refl.
  - destruct (load s base a); try discriminate. destruct (load s base b); try discriminate.
    intros E. apply (pushed_spec _ _ _ _ E).
Qed.
Lemma evals_grows base : forall rs s s' es, evals s base rs = Ok (s', es) -> grows s s' /\ length es = length rs.
Proof.
  induction rs as [|r rs IH]; intros s s' es; cbn [PassModel.evals].
  - intros E; inversion E; subst. auto using grows_refl.
  - destruct (eval s base r) as [[s1 e]| | |] eqn:E1; try discriminate.
    destruct (evals s1 base rs) as [[s2 es']| | |] eqn:E2; try discriminate.
    intros E; inversion E; subst. destruct (IH _ _ _ E2) as (G & L). split; [|cbn; congruence].
    eapply grows_trans; [eapply eval_grows; eauto|exact G].
Qed.
(** The element loaded: a literal, a temporary, the content of a variable that is no reference,
    or a pointer to what a reference stands for. *)
Definition source (s : st) (e : elem) : Prop :=
  match e with
  | ERef _ => False
  | EPtr j => (j < length (vars s))%nat /\ forall j', nth_error (vars s) j <> Some (ERef j')
  | EStr r => exists o, nth_error (strs s) r = Some o
  | _ => True
  end.
Lemma source_grows s s' e : grows s s' -> source s e -> source s' e.
Proof.
  intros G. pose proof G as (V & _). destruct e; cbn; auto.
  - intros (o & E). exists o. eapply grows_str; eauto.
  - rewrite V. auto.
Qed.
Lemma load_source s base l e : wf s -> leaf_ok s l -> load s base l = Ok e -> source s e.
Proof.
  intros W K. destruct l as [v|x]; cbn [load].
  - destruct (getv s (slot base v)) as [a| | |] eqn:E; try discriminate. apply getv_ok in E.
    pose proof (nth_error_bound _ _ _ E) as B. pose proof (W _ _ E) as H.
    destruct a; intros X; inversion X; subst; cbn in *; auto.
    + destruct H as (o & H & _). eauto.
    + destruct H as (H & N). split; [lia|exact N].
    + destruct H as (H & N). split; [lia|exact N].
  - intros X; inversion X; subst. cbn in K. destruct e; cbn in *; try contradiction; auto.
    destruct K as (o & K & _). eauto.
Qed.
Lemma eval_source s base r s' e : wf s -> rhs_ok s r -> eval s base r = Ok (s', e) -> source s' e.
Proof.
  intros W K. destruct r as [l|o a b]; cbn [PassModel.eval].
  - destruct (load s base l) as [x| | |] eqn:E; try discriminate. intros X; inversion X; subst. eapply load_source; eauto.
  - destruct (load s base a); try discriminate. destruct (load s base b); try discriminate.
    intros E. apply pushed_spec in E. destruct E as (_ & H). destruct e; cbn; auto; try contradiction.
    destruct H as (_ & t & H). eauto.
Qed.
Lemma rhs_grows s s' r : grows s s' -> rhs_ok s r -> rhs_ok s' r.
Proof.
  intros G. assert (L : forall l, leaf_ok s l -> leaf_ok s' l) by (intros [v|e]; cbn; auto; apply grows_lit; exact G).
  destruct r; cbn; firstorder.
Qed.
Lemma evals_source base : forall rs s s' es, wf s -> Forall (rhs_ok s) rs -> evals s base rs = Ok (s', es) -> Forall (source s') es.
Proof.
  induction rs as [|r rs IH]; intros s s' es W K; cbn [PassModel.evals].
  - intros E; inversion E; subst. constructor.
  - inversion K as [|? ? K1 K2]; subst.
    destruct (eval s base r) as [[s1 e]| | |] eqn:E1; try discriminate.
    destruct (evals s1 base rs) as [[s2 es']| | |] eqn:E2; try discriminate.
    intros E; inversion E; subst. pose proof (eval_grows _ _ _ _ _ E1) as G1.
    constructor.
    + eapply source_grows; [apply (evals_grows _ _ _ _ _ E2)|]. eapply eval_source; eauto.
    + eapply IH; [eapply grows_wf; eauto| |exact E2]. eapply Forall_impl; [|exact K2]. intros a. apply rhs_grows. exact G1.
Qed.

(** ** One store *)
(** What [store] reads: the source, or the variable it points to. *)
Definition deref (s : st) (e : elem) : res elem := match e with EPtr j => getv s j | _ => Ok e end.
(** The two effects a store can have. *)
Definition wrote (s : st) (d : nat) (v : elem) (s' : st) : Prop :=
  match v with
  | EStr r =>
      exists o old, nth_error (strs s) r = Some o /\ nth_error (vars s) d = Some old /\
      match old with
      | EStr r' => vars s' = vars s /\ exists o', nth_error (strs s) r' = Some o' /\
            strs s' = upd (strs s) r' (SO (set_text (txt o)) (konst o'))
      | _ => vars s' = upd (vars s) d (EStr (length (strs s))) /\ strs s' = strs s ++ [SO (set_text (txt o)) false]
      end
  | EPtr _ => False
  | _ => (d < length (vars s))%nat /\ s' = setv s d v
  end.
Lemma store_wrote s d e s' : store s d e = Ok s' -> exists v, deref s e = Ok v /\ wrote s d v s'.
Proof.
  unfold store. destruct (getv s d) as [old| | |] eqn:E; try discriminate. apply getv_ok in E.
  fold (deref s e). destruct (deref s e) as [v| | |]; try discriminate.
  intros H. exists v. split; [reflexivity|]. pose proof (nth_error_bound _ _ _ E) as B.
  destruct v; cbn [wrote]; try (inversion H; subst; split; [exact B|reflexivity]); try discriminate.
  destruct (gets s r) as [o| | |] eqn:G; try discriminate. apply gets_ok in G. exists o, old.
  split; [exact G|split; [exact E|]]. destruct old; try (inversion H; subst; split; reflexivity).
  unfold set_str in H. destruct (gets s r0) as [o'| | |] eqn:G'; try discriminate. apply gets_ok in G'.
  inversion H; subst. split; [reflexivity|]. exists o'. auto.
Qed.
(** A store succeeds unless it would copy a pointer. *)
Lemma store_total s d e old v : wf s -> nth_error (vars s) d = Some old -> deref s e = Ok v ->
  match v with EPtr _ => False | EStr r => exists o, nth_error (strs s) r = Some o | _ => True end ->
  exists s', store s d e = Ok s'.
Proof.
  intros W E D H. unfold store. rewrite (proj2 (getv_ok _ _ _) E). fold (deref s e). rewrite D.
  destruct v; eauto; try contradiction. destruct H as (o & Ho). rewrite (proj2 (gets_ok _ _ _) Ho).
  destruct old; try (eexists; reflexivity). unfold set_str. destruct (W _ _ E) as (o' & Ho' & _). rewrite (proj2 (gets_ok _ _ _) Ho'). eauto.
Qed.

Definition keep (d : datum) : datum := match d with DTxt t => DTxt (set_text t) | _ => d end.
Lemma keep_plain d : plain d -> keep d = d.
Proof. destruct d; try reflexivity. intros H. cbn [keep]. f_equal. apply set_text_plain. exact H. Qed.

Lemma wrote_vars_length s d v s' : wrote s d v s' -> length (vars s') = length (vars s).
Proof.
  destruct v; cbn [wrote].
  8: { intros (o & old & _ & Hd & H). pose proof (nth_error_bound _ _ _ Hd).
       destruct old; destruct H as (-> & _); auto using upd_length. }
  all: try contradiction.
  all: intros (B & ->); apply upd_length; exact B.
Qed.
Lemma wrote_other s d v s' i : wrote s d v s' -> i <> d -> nth_error (vars s') i = nth_error (vars s) i.
Proof.
  destruct v; cbn [wrote].
  8: { intros (o & old & _ & Hd & H) N. pose proof (nth_error_bound _ _ _ Hd).
       destruct old; destruct H as (-> & _); auto using upd_other. }
  all: try contradiction.
  all: intros (B & ->) N; cbn [vars setv]; apply upd_other; auto.
Qed.
(** The content of the destination afterwards. *)
Lemma wrote_dest s d v s' : wrote s d v s' ->
  exists e, nth_error (vars s') d = Some e /\
  match v with
  | EStr _ => exists r, e = EStr r /\ (nth_error (vars s) d = Some (EStr r) \/ r = length (strs s))
  | _ => e = v
  end.
Proof.
  destruct v; cbn [wrote].
  8: { intros (o & old & _ & Hd & H). pose proof (nth_error_bound _ _ _ Hd) as B.
       destruct old; destruct H as (-> & H); try (eexists; split; [apply upd_same; exact B|eauto]).
       eexists. split; [exact Hd|]. eauto. }
  all: try contradiction.
  all: intros (B & ->); eexists; split; [apply upd_same; exact B|reflexivity].
Qed.
(** String objects: none is lost, constness never changes, only that of the destination changes. *)
Lemma wrote_strs s d v s' r o : wrote s d v s' -> nth_error (strs s) r = Some o ->
  exists o', nth_error (strs s') r = Some o' /\ konst o' = konst o /\
  (nth_error (vars s) d <> Some (EStr r) -> o' = o).
Proof.
  intros Hw Ho. pose proof (nth_error_bound _ _ _ Ho) as B. destruct v; cbn [wrote] in Hw.
  8: { destruct Hw as (q & old & _ & Hd & H).
       destruct old; destruct H as (_ & H); try (rewrite H, nth_error_app1 by lia; eauto).
       destruct H as (o' & Ho' & ->). destruct (Nat.eq_dec r1 r) as [->|N].
       - rewrite upd_same by exact B. eexists. split; [reflexivity|]. cbn [konst].
         rewrite Ho in Ho'. inversion Ho'; subst. split; [reflexivity|]. congruence.
       - rewrite upd_other by (auto; eapply nth_error_bound; eauto). eauto. }
  all: try contradiction.
  all: destruct Hw as (_ & ->); eauto.
Qed.

(** The value written is the value read, and no other variable changes. *)
Lemma wrote_obs s d v s' x : wf s -> wrote s d v s' -> value s v = Some x -> obs s' d = Some (keep x).
Proof.
  intros W Hw Hv. destruct v; cbn [wrote value] in *; try discriminate.
  8: { destruct Hw as (o & old & Ho & Hd & H). rewrite Ho in Hv. inversion Hv; subst. cbn [keep].
       pose proof (nth_error_bound _ _ _ Hd) as B. unfold obs.
       destruct old; destruct H as (Ev & H); rewrite Ev;
         try (rewrite upd_same by exact B; cbn [value]; rewrite H, nth_error_app2, Nat.sub_diag by lia; reflexivity).
       destruct H as (o' & Ho' & Es). rewrite Hd. cbn [value].
       rewrite Es, upd_same by (eapply nth_error_bound; eauto). reflexivity. }
  all: destruct Hw as (B & ->); unfold obs; cbn [vars setv]; rewrite upd_same by exact B; inversion Hv; subst; reflexivity.
Qed.
Lemma wrote_obs_other s d v s' i : wf s -> wrote s d v s' -> i <> d ->
  (forall r, nth_error (vars s) d = Some (EStr r) -> nth_error (vars s) i <> Some (EStr r)) -> obs s' i = obs s i.
Proof.
  intros W Hw N S. unfold obs. rewrite (wrote_other _ _ _ _ _ Hw N).
  destruct (nth_error (vars s) i) as [e|] eqn:E; [|reflexivity].
  destruct e; try reflexivity. cbn [value]. destruct (W _ _ E) as (o & Ho & _).
  destruct (wrote_strs _ _ _ _ _ _ Hw Ho) as (o' & Ho' & _ & Eq). rewrite Ho, Ho'.
  rewrite Eq; [reflexivity|]. intros F. apply (S _ F). reflexivity.
Qed.
(** Well-formedness. *)
Lemma deref_source s e v : wf s -> source s e -> deref s e = Ok v ->
  match v with ERef _ => False | EStr r => exists o, nth_error (strs s) r = Some o | _ => True end.
Proof.
  intros W S D. destruct e; cbn [deref source] in *; try (inversion D; subst; exact I); try contradiction.
  - inversion D; subst. exact S.
  - apply getv_ok in D. destruct S as (_ & N). pose proof (W _ _ D) as H. destruct v; auto.
    + destruct H as (o & H & _). eauto.
    + exact (N _ D).
Qed.
Lemma wrote_wf s d v s' : wf s -> wrote s d v s' -> match v with ERef _ => False | _ => True end -> wf s'.
Proof.
  intros W Hw Hv k e Hk. destruct (Nat.eq_dec k d) as [->|N].
  - destruct (wrote_dest _ _ _ _ Hw) as (e' & E' & H). rewrite E' in Hk. inversion Hk; subst e'.
    destruct v; subst; cbn [wf_elem]; auto; try contradiction.
    destruct H as (q & -> & H). cbn [wf_elem]. destruct H as [H|H].
    + destruct (W _ _ H) as (o & Ho & K). destruct (wrote_strs _ _ _ _ _ _ Hw Ho) as (o' & Ho' & K' & _).
      exists o'. split; [exact Ho'|congruence].
    + subst q. cbn [wrote] in Hw. destruct Hw as (o & old & Ho & Hd & Hw).
      destruct old; try (destruct Hw as (_ & ->); rewrite nth_error_app2, Nat.sub_diag by lia; cbn; eauto).
      destruct Hw as (Ev & _). rewrite Ev, Hd in E'. inversion E'; subst.
      destruct (W _ _ Hd) as (o' & Ho' & _). apply nth_error_bound in Ho'. lia.
  - rewrite (wrote_other _ _ _ _ _ Hw N) in Hk. pose proof (W _ _ Hk) as H.
    assert (R : forall j, (forall j', nth_error (vars s) j <> Some (ERef j')) -> forall j', nth_error (vars s') j <> Some (ERef j')).
    { intros j Hj j' F. destruct (Nat.eq_dec j d) as [->|Nj].
      - destruct (wrote_dest _ _ _ _ Hw) as (e' & E' & He). rewrite E' in F. inversion F; subst e'.
        destruct v; try discriminate; try contradiction. destruct He as (q & X & _). discriminate.
      - rewrite (wrote_other _ _ _ _ _ Hw Nj) in F. exact (Hj _ F). }
    destruct e; cbn [wf_elem] in *; auto.
    + destruct H as (o & Ho & K). destruct (wrote_strs _ _ _ _ _ _ Hw Ho) as (o' & Ho' & K' & _).
      exists o'. split; [exact Ho'|congruence].
    + destruct H. auto.
    + destruct H. auto.
Qed.

(** ** Whole runs *)
Lemma cmd_induct (P : cmd -> Prop) :
  (forall vs rs, P (CSet vs rs)) ->
  (forall args n body, Forall P body -> P (CCall args n body)) -> forall c, P c.
Proof.
  intros Hs Hc. fix IH 1. intros [vs rs|args n body]; [apply Hs|]. apply Hc.
  induction body as [|c body IHb]; constructor; [apply IH|exact IHb].
Qed.
Lemma exec_call base args locals body s :
  exec base (CCall args locals body) s =
  match arg_elems s base args with
  | Ok (s1, es) =>
      match pass_all s1 args es with
      | Ok (s2, ps) =>
          match run (length (vars s2)) body (enter s2 ps locals) with
          | Ok t => Ok (leave (length (vars s2)) t)
          | r => r
          end
      | Thr => Thr | UB => UB | Loop => Loop
      end
  | Thr => Thr | UB => UB | Loop => Loop
  end.
Proof.
  cbn [PassModel.exec]. destruct (arg_elems s base args) as [[s1 es]| | |]; try reflexivity.
  destruct (pass_all s1 args es) as [[s2 ps]| | |]; try reflexivity.
  set (n := length (vars s2)). generalize (enter s2 ps locals) as t. revert body.
  assert (E : forall body t, (fix go (l : list cmd) (t0 : st) {struct l} : res st :=
     match l with [] => Ok t0 | c' :: l' => match exec n c' t0 with Ok t' => go l' t' | r => r end end) body t = run n body t).
  { induction body as [|c body IH]; intros t; [reflexivity|]. cbn [PassModel.run].
    destruct (exec n c t); [apply IH| | |]; reflexivity. }
  intros body t. rewrite E. reflexivity.
Qed.
Lemma exec_set base vs rs s :
  exec base (CSet vs rs) s =
  match evals s base rs with
  | Ok (s1, es) => match dests s1 base vs with Ok ds => stores s1 (rev ds) (rev es) | _ => UB end
  | Thr => Thr | UB => UB | Loop => Loop
  end.
Proof. reflexivity. Qed.

(** String objects stay, constants keep their text. *)
Definition mono (s s' : st) : Prop :=
  forall r o, nth_error (strs s) r = Some o ->
  exists o', nth_error (strs s') r = Some o' /\ konst o' = konst o /\ (konst o = true -> o' = o).
Lemma mono_refl s : mono s s.
Proof. intros r o H. eauto. Qed.
Lemma mono_trans a b c : mono a b -> mono b c -> mono a c.
Proof.
  intros H1 H2 r o H. destruct (H1 r o H) as (o1 & E1 & K1 & C1). destruct (H2 r o1 E1) as (o2 & E2 & K2 & C2).
  exists o2. split; [exact E2|]. split; [congruence|]. intros K. rewrite C2 by congruence. auto.
Qed.
Lemma grows_mono s s' : grows s s' -> mono s s'.
Proof. intros G r o H. exists o. split; [eapply grows_str; eauto|auto]. Qed.
Lemma wrote_mono s d v s' : wf s -> wrote s d v s' -> mono s s'.
Proof.
  intros W Hw r o H. destruct (wrote_strs _ _ _ _ _ _ Hw H) as (o' & E & K & U). exists o'.
  split; [exact E|]. split; [exact K|]. intros C. apply U. intros F. destruct (W _ _ F) as (q & Hq & Kq). congruence.
Qed.
Lemma mono_lit s s' e : mono s s' -> lit_ok s e -> lit_ok s' e.
Proof. intros M. destruct e; cbn; auto. intros (o & E & K). destruct (M _ _ E) as (o' & E' & K' & _). exists o'. split; congruence. Qed.
Lemma mono_rhs s s' r : mono s s' -> rhs_ok s r -> rhs_ok s' r.
Proof.
  intros M. assert (L : forall l, leaf_ok s l -> leaf_ok s' l) by (intros [v|e]; cbn; auto; apply mono_lit; exact M).
  destruct r; cbn; firstorder.
Qed.
Definition cmds_ok (s : st) (l : list cmd) : Prop := Forall (cmd_ok s) l.
Lemma cmd_ok_call s args n body : cmd_ok s (CCall args n body) <-> Forall (fun a => rhs_ok s (snd a)) args /\ cmds_ok s body.
Proof.
  cbn [cmd_ok]. unfold cmds_ok. split; intros (A & B); split; auto.
  - clear A. induction body as [|c l IH]; constructor; tauto.
  - clear A. induction body as [|c l IH]; [exact I|]. inversion B; subst. split; [assumption|apply IH; assumption].
Qed.
Lemma mono_cmd s s' c : mono s s' -> cmd_ok s c -> cmd_ok s' c.
Proof.
  intros M. induction c as [vs rs|args n body IH] using cmd_induct.
  - cbn [cmd_ok]. apply Forall_impl. intros r. apply mono_rhs. exact M.
  - rewrite !cmd_ok_call. intros (A & B). split.
    + eapply Forall_impl; [|exact A]. intros a. apply mono_rhs. exact M.
    + unfold cmds_ok in *. rewrite Forall_forall in *. auto.
Qed.

(** What one step keeps. *)
Definition kept (s s' : st) : Prop :=
  wf s' /\ length (vars s') = length (vars s) /\ mono s s' /\
  (forall n, (n <= length (vars s))%nat -> apart s n -> apart s' n).
Lemma kept_refl s : wf s -> kept s s.
Proof. intros W. repeat split; auto using mono_refl. Qed.
Lemma kept_trans a b c : kept a b -> kept b c -> kept a c.
Proof.
  intros (W1 & L1 & M1 & A1) (W2 & L2 & M2 & A2). split; [exact W2|split; [congruence|split; [eapply mono_trans; eauto|]]].
  intros n Hn H. apply A2; [lia|]. auto.
Qed.
Lemma grows_kept s s' : wf s -> grows s s' -> kept s s'.
Proof.
  intros W G. split; [eapply grows_wf; eauto|]. pose proof G as (V & _). rewrite V. split; [reflexivity|].
  split; [apply grows_mono; exact G|]. intros n _ A. unfold apart. rewrite V. exact A.
Qed.
Lemma wrote_kept s d v s' : wf s -> wrote s d v s' -> match v with ERef _ => False | _ => True end -> kept s s'.
Proof.
  intros W Hw Hv. split; [eapply wrote_wf; eauto|]. split; [eapply wrote_vars_length; eauto|].
  split; [eapply wrote_mono; eauto|].
  intros n Hn A i j r Hi Hj Ei Ej.
  assert (X : forall i k, i = d -> k <> d -> (i < n)%nat -> (k < n)%nat -> nth_error (vars s') i = Some (EStr r) ->
     nth_error (vars s') k = Some (EStr r) -> False).
  { clear i j Hi Hj Ei Ej. intros i k -> Nk Hi Hk Ei Ek. rewrite (wrote_other _ _ _ _ _ Hw Nk) in Ek.
    destruct (wrote_dest _ _ _ _ Hw) as (e & E & H). rewrite E in Ei. inversion Ei; subst e.
    destruct v; try discriminate. destruct H as (q & Q & H). inversion Q; subst q. destruct H as [H|H].
    - apply Nk. eapply A; eauto.
    - destruct (W _ _ Ek) as (o & Ho & _). apply nth_error_bound in Ho. lia. }
  destruct (Nat.eq_dec i d) as [Id|Id], (Nat.eq_dec j d) as [Jd|Jd].
  - congruence.
  - exfalso. eapply (X i j); eauto.
  - exfalso. eapply (X j i); eauto.
  - rewrite (wrote_other _ _ _ _ _ Hw Id) in Ei. rewrite (wrote_other _ _ _ _ _ Hw Jd) in Ej. eapply A; eauto.
Qed.
Lemma store_kept s d e s' : wf s -> source s e -> store s d e = Ok s' -> kept s s'.
Proof.
  intros W K H. destruct (store_wrote _ _ _ _ H) as (v & D & Hw). eapply wrote_kept; eauto.
  pose proof (deref_source _ _ _ W K D). destruct v; auto.
Qed.
(** Sources stay sources. *)
Lemma source_kept s d v s' e : wf s -> wrote s d v s' -> match v with ERef _ => False | _ => True end -> source s e -> source s' e.
Proof.
  intros W Hw Hv. destruct e; cbn; auto.
  - intros (o & E). destruct (wrote_strs _ _ _ _ _ _ Hw E) as (o' & E' & _). eauto.
  - intros (L & N). rewrite (wrote_vars_length _ _ _ _ Hw). split; [exact L|]. intros j' F.
    destruct (Nat.eq_dec i d) as [->|Nd].
    + destruct (wrote_dest _ _ _ _ Hw) as (e & E & H). rewrite E in F. inversion F; subst e.
      destruct v; try discriminate; try contradiction. destruct H as (q & Q & _). discriminate.
    + rewrite (wrote_other _ _ _ _ _ Hw Nd) in F. exact (N _ F).
Qed.
Lemma stores_kept : forall ds es s s', wf s -> Forall (source s) es -> stores s ds es = Ok s' -> kept s s'.
Proof.
  induction ds as [|d ds IH]; intros es s s' W K; cbn [stores].
  - intros E; inversion E; subst. apply kept_refl. exact W.
  - destruct es as [|e es]; [discriminate|]. inversion K as [|? ? K1 K2]; subst.
    destruct (store s d e) as [s1| | |] eqn:E1; try discriminate. intros E.
    pose proof (store_kept _ _ _ _ W K1 E1) as H1. eapply kept_trans; [exact H1|].
    eapply IH; [apply H1| |exact E]. destruct (store_wrote _ _ _ _ E1) as (v & D & Hw).
    pose proof (deref_source _ _ _ W K1 D) as Hv.
    eapply Forall_impl; [|exact K2]. intros a. eapply source_kept; eauto. destruct v; auto.
Qed.

(** ** Calls *)
(** The element pushed for an argument. *)
Definition arg_good (s : st) (e : elem) : Prop :=
  match e with
  | ERef j | EPtr j => (j < length (vars s))%nat /\ forall j', nth_error (vars s) j <> Some (ERef j')
  | EStr r => exists o, nth_error (strs s) r = Some o
  | _ => True
  end.
(** A parameter. *)
Definition par_good (s : st) (e : elem) : Prop :=
  match e with
  | ERef j | EPtr j => (j < length (vars s))%nat /\ forall j', nth_error (vars s) j <> Some (ERef j')
  | EStr r => exists o, nth_error (strs s) r = Some o /\ konst o = false
  | _ => True
  end.
Lemma arg_good_grows s s' e : grows s s' -> arg_good s e -> arg_good s' e.
Proof.
  intros G. pose proof G as (V & _). destruct e; cbn; auto; try (rewrite V; auto).
  intros (o & E). exists o. eapply grows_str; eauto.
Qed.
Lemma par_good_grows s s' e : grows s s' -> par_good s e -> par_good s' e.
Proof.
  intros G. pose proof G as (V & _). destruct e; cbn; auto; try (rewrite V; auto).
  intros (o & E & K). exists o. split; [eapply grows_str; eauto|exact K].
Qed.
Lemma arg_elem_grows s base r s' e : arg_elem s base r = Ok (s', e) -> grows s s'.
Proof.
  unfold PassModel.arg_elem. destruct r as [[v|x]|o a b].
  - destruct (getv s (slot base v)) as [a| | |]; try discriminate. destruct a; intros E; inversion E; subst; apply grows_refl.
  - apply eval_grows.
  - apply eval_grows.
Qed.
Lemma arg_elem_good s base r s' e : wf s -> rhs_ok s r -> arg_elem s base r = Ok (s', e) -> arg_good s' e.
Proof.
  intros W K. unfold PassModel.arg_elem. destruct r as [[v|x]|o a b].
  - destruct (getv s (slot base v)) as [a| | |] eqn:E; try discriminate. apply getv_ok in E.
    pose proof (nth_error_bound _ _ _ E) as B. pose proof (W _ _ E) as H.
    destruct a; intros X; inversion X; subst; cbn [arg_good]; try (split; [exact B|intros j' F; congruence]).
    cbn [wf_elem] in H. destruct H. split; [lia|assumption].
  - intros X. pose proof (eval_source _ _ _ _ _ W K X) as S. destruct e; cbn in *; auto. contradiction.
  - intros X. pose proof (eval_source _ _ _ _ _ W K X) as S. destruct e; cbn in *; auto. contradiction.
Qed.
Lemma arg_elems_grows base : forall args s s' es, arg_elems s base args = Ok (s', es) -> grows s s' /\ length es = length args.
Proof.
  induction args as [|(b, r) args IH]; intros s s' es; cbn [PassModel.arg_elems].
  - intros E; inversion E; subst. auto using grows_refl.
  - destruct (arg_elem s base r) as [[s1 e]| | |] eqn:E1; try discriminate.
    destruct (arg_elems s1 base args) as [[s2 es']| | |] eqn:E2; try discriminate.
    intros E; inversion E; subst. destruct (IH _ _ _ E2) as (G & L). split; [|cbn; congruence].
    eapply grows_trans; [eapply arg_elem_grows; eauto|exact G].
Qed.
Lemma arg_elems_good base : forall args s s' es, wf s -> Forall (fun a => rhs_ok s (snd a)) args ->
  arg_elems s base args = Ok (s', es) -> Forall (arg_good s') es.
Proof.
  induction args as [|(b, r) args IH]; intros s s' es W K; cbn [PassModel.arg_elems].
  - intros E; inversion E; subst. constructor.
  - inversion K as [|? ? K1 K2]; subst. cbn [snd] in K1.
    destruct (arg_elem s base r) as [[s1 e]| | |] eqn:E1; try discriminate.
    destruct (arg_elems s1 base args) as [[s2 es']| | |] eqn:E2; try discriminate.
    intros E; inversion E; subst. pose proof (arg_elem_grows _ _ _ _ _ E1) as G1. constructor.
    + eapply arg_good_grows; [apply (arg_elems_grows _ _ _ _ _ E2)|]. eapply arg_elem_good; eauto.
    + eapply IH; [eapply grows_wf; eauto| |exact E2]. eapply Forall_impl; [|exact K2]. intros a. apply rhs_grows. exact G1.
Qed.
Lemma pass_grows s b e s' p : pass s b e = Ok (s', p) -> grows s s'.
Proof.
  unfold pass. destruct b.
  - destruct e; try discriminate; intros E; inversion E; subst; apply grows_refl.
  - destruct (match e with EPtr i => getv s i | _ => Ok e end) as [e1| | |]; try discriminate.
    destruct e1; try (intros E; inversion E; subst; apply grows_refl).
    destruct (gets s r) as [o| | |]; try discriminate. destruct (konst o).
    + destruct (new_str s (txt o)) as [s1 n] eqn:N. intros E; inversion E; subst. apply (new_str_grows _ _ _ _ N).
    + intros E; inversion E; subst; apply grows_refl.
Qed.
Lemma pass_good s b e s' p : wf s -> arg_good s e -> pass s b e = Ok (s', p) -> par_good s' p.
Proof.
  intros W K. unfold pass. destruct b.
  - destruct e; try discriminate; intros E; inversion E; subst; exact K.
  - destruct (match e with EPtr i => getv s i | _ => Ok e end) as [e1| | |] eqn:D; try discriminate.
    assert (G : arg_good s e1).
    { destruct e; try (inversion D; subst; exact K). apply getv_ok in D. pose proof (W _ _ D) as H.
      pose proof (nth_error_bound _ _ _ D) as B.
      destruct e1; cbn in *; auto.
      - destruct H as (o & H & _). eauto.
      - destruct H. split; [lia|assumption].
      - destruct H. split; [lia|assumption]. }
    destruct e1; try (intros E; inversion E; subst; exact G).
    destruct (gets s r) as [o| | |] eqn:Go; try discriminate. apply gets_ok in Go. destruct (konst o) eqn:Ko.
    + destruct (new_str s (txt o)) as [s1 n] eqn:N. intros E; inversion E; subst.
      destruct (new_str_grows _ _ _ _ N) as (_ & _ & H). cbn. eauto.
    + intros E; inversion E; subst. cbn. eauto.
Qed.
Lemma pass_all_grows : forall args es s s' ps, length es = length args -> pass_all s args es = Ok (s', ps) ->
  grows s s' /\ length ps = length args.
Proof.
  induction args as [|(b, r) args IH]; intros [|e es] s s' ps L; try discriminate; cbn [pass_all].
  - intros E; inversion E; subst. auto using grows_refl.
  - destruct (pass s b e) as [[s1 p]| | |] eqn:E1; try discriminate.
    destruct (pass_all s1 args es) as [[s2 ps']| | |] eqn:E2; try discriminate.
    intros E; inversion E; subst. cbn in L. apply Nat.succ_inj in L. destruct (IH _ _ _ _ L E2) as (G & Lp). split; [|cbn; congruence].
    eapply grows_trans; [eapply pass_grows; eauto|exact G].
Qed.
Lemma pass_all_good : forall args es s s' ps, wf s -> Forall (arg_good s) es -> length es = length args ->
  pass_all s args es = Ok (s', ps) -> Forall (par_good s') ps.
Proof.
  induction args as [|(b, r) args IH]; intros [|e es] s s' ps W K L; try discriminate; cbn [pass_all].
  - intros E; inversion E; subst. constructor.
  - inversion K as [|? ? K1 K2]; subst. cbn in L. apply Nat.succ_inj in L.
    destruct (pass s b e) as [[s1 p]| | |] eqn:E1; try discriminate.
    destruct (pass_all s1 args es) as [[s2 ps']| | |] eqn:E2; try discriminate.
    intros E; inversion E; subst. pose proof (pass_grows _ _ _ _ _ E1) as G1. constructor.
    + eapply par_good_grows; [apply (pass_all_grows _ _ _ _ _ L E2)|]. eapply pass_good; eauto.
    + eapply IH; [eapply grows_wf; eauto| |exact L|exact E2]. eapply Forall_impl; [|exact K2]. intros a. apply arg_good_grows. exact G1.
Qed.

Lemma enter_old s ps n k : (k < length (vars s))%nat -> nth_error (vars (enter s ps n)) k = nth_error (vars s) k.
Proof. intros H. cbn [enter vars]. now rewrite nth_error_app1 by lia. Qed.
Lemma enter_new s ps n k e : (length (vars s) <= k)%nat -> nth_error (vars (enter s ps n)) k = Some e ->
  In e ps \/ e = EU.
Proof.
  intros H. cbn [enter vars]. rewrite nth_error_app2 by lia. intros E. apply nth_error_In, in_app_or in E.
  destruct E as [E|E]; [auto|]. right. eapply repeat_spec; eauto.
Qed.
Lemma enter_wf s ps n : wf s -> Forall (par_good s) ps -> wf (enter s ps n).
Proof.
  intros W K k e E. destruct (Nat.lt_ge_cases k (length (vars s))) as [L|L].
  - rewrite enter_old in E by exact L. pose proof (W _ _ E) as H. destruct e; cbn [wf_elem] in *; auto;
      destruct H; split; auto; rewrite enter_old by lia; assumption.
  - destruct (enter_new _ _ _ _ _ L E) as [H| ->]; [|exact I]. rewrite Forall_forall in K. specialize (K _ H).
    destruct e; cbn [par_good wf_elem] in *; auto; destruct K; split; try lia; rewrite enter_old by assumption; assumption.
Qed.
Lemma leave_wf n s : wf s -> wf (leave n s).
Proof.
  intros W k e E. cbn [leave vars] in E.
  assert (B : (k < n)%nat).
  { destruct (Nat.lt_ge_cases k n); [assumption|]. rewrite nth_error_firstn_out in E by assumption. discriminate. }
  rewrite nth_error_firstn in E by exact B. pose proof (W _ _ E) as H. destruct e; cbn [wf_elem leave vars] in *; auto;
    destruct H; split; auto; intros j'; rewrite nth_error_firstn by lia; auto.
Qed.

Theorem exec_kept : forall c base s s', wf s -> cmd_ok s c -> exec base c s = Ok s' -> kept s s'.
Proof.
  induction c as [vs rs|args n body IH] using cmd_induct; intros base s s' W K E.
  - rewrite exec_set in E. destruct (evals s base rs) as [[s1 es]| | |] eqn:E1; try discriminate.
    destruct (dests s1 base vs) as [ds| | |]; try discriminate.
    destruct (evals_grows _ _ _ _ _ E1) as (G & _). pose proof (grows_kept _ _ W G) as H1.
    eapply kept_trans; [exact H1|]. eapply stores_kept; [apply H1| |exact E].
    apply Forall_rev. eapply evals_source; eauto.
  - apply cmd_ok_call in K. destruct K as (Ka & Kb). rewrite exec_call in E.
    destruct (arg_elems s base args) as [[s1 es]| | |] eqn:E1; try discriminate.
    destruct (pass_all s1 args es) as [[s2 ps]| | |] eqn:E2; try discriminate.
    destruct (arg_elems_grows _ _ _ _ _ E1) as (G1 & L1). destruct (pass_all_grows _ _ _ _ _ L1 E2) as (G2 & L2).
    assert (G : grows s s2) by (eapply grows_trans; eauto). pose proof (grows_kept _ _ W G) as H2.
    assert (P : Forall (par_good s2) ps).
    { apply (pass_all_good args es s1 s2 ps); [exact (grows_wf _ _ G1 W)| |exact L1|exact E2]. eapply arg_elems_good; eauto. }
    pose proof (enter_wf s2 ps n (proj1 H2) P) as We.
    set (s3 := enter s2 ps n) in *. set (b2 := length (vars s2)) in *.
    assert (M3 : mono s s3) by (destruct H2 as (_ & _ & M & _); exact M).
    assert (R : forall body t t', Forall (fun c => forall base s s', wf s -> cmd_ok s c -> exec base c s = Ok s' -> kept s s') body ->
       wf t -> cmds_ok t body -> run b2 body t = Ok t' -> kept t t').
    { clear. induction body as [|c body IHb]; intros t t' F W K E; cbn [PassModel.run] in E.
      - inversion E; subst. apply kept_refl. exact W.
      - inversion F as [|? ? F1 F2]; subst. inversion K as [|? ? K1 K2]; subst.
        destruct (exec b2 c t) as [t1| | |] eqn:Ec; try discriminate.
        pose proof (F1 _ _ _ W K1 Ec) as H. eapply kept_trans; [exact H|]. eapply IHb; eauto; [apply H|].
        eapply Forall_impl; [|exact K2]. intros a. apply mono_cmd. apply H. }
    destruct (run b2 body s3) as [t| | |] eqn:E3; try discriminate. inversion E; subst s'.
    assert (Kt : kept s3 t).
    { eapply R; eauto. eapply Forall_impl; [|exact Kb]. intros a. apply mono_cmd. exact M3. }
    destruct Kt as (Wt & Lt & Mt & At). destruct H2 as (W2 & L2' & M2 & A2).
    assert (Len3 : (b2 <= length (vars s3))%nat) by (unfold s3, b2; cbn [enter vars]; rewrite app_length; lia).
    split; [apply leave_wf; exact Wt|].
    split; [cbn [leave vars]; rewrite firstn_length_le by lia; unfold b2; exact L2'|].
    split; [eapply mono_trans; [exact M3|exact Mt]|].
    intros m Hm A i j r Hi Hj Ei Ej. cbn [leave vars] in Ei, Ej.
    assert (Hb : (m <= b2)%nat) by (unfold b2; lia).
    rewrite nth_error_firstn in Ei by lia. rewrite nth_error_firstn in Ej by lia.
    assert (A3 : apart s3 m).
    { intros x y q Hx Hy. unfold s3. rewrite !enter_old by (unfold b2 in Hb; lia). apply (A2 m Hm A); assumption. }
    exact (At m ltac:(lia) A3 i j r Hi Hj Ei Ej).
Qed.
Lemma run_kept : forall body base s s', wf s -> cmds_ok s body -> run base body s = Ok s' -> kept s s'.
Proof.
  induction body as [|c body IH]; intros base t t' W K E; cbn [PassModel.run] in E.
  - inversion E; subst. apply kept_refl. exact W.
  - inversion K as [|? ? K1 K2]; subst.
    destruct (exec base c t) as [t1| | |] eqn:Ec; try discriminate.
    pose proof (exec_kept _ _ _ _ W K1 Ec) as H. eapply kept_trans; [exact H|]. eapply IH; eauto; [apply H|].
    eapply Forall_impl; [|exact K2]. intros a. apply mono_cmd. apply H.
Qed.

(** ** What a call leaves alone *)
Section Iso.
(** Variable [k] of the first [N], its element [e0] and string object; [W]: the variables
    passed by reference. *)
Variables (N k : nat) (W : nat -> Prop) (e0 : elem) (o0 : strobj).
Hypothesis kN : (k < N)%nat.
Hypothesis kW : ~ W k.

Definition dom (i : nat) : Prop := (N <= i)%nat \/ W i.
Definition nice (e : elem) : Prop := match e with EStr r => e0 <> EStr r | ERef j => dom j | _ => True end.
Definition Inv (t : st) : Prop :=
  (N <= length (vars t))%nat /\ nth_error (vars t) k = Some e0 /\
  (forall r, e0 = EStr r -> nth_error (strs t) r = Some o0) /\
  (forall i e, dom i -> nth_error (vars t) i = Some e -> nice e).

Lemma dom_k i : dom i -> i <> k.
Proof. intros [H|H] ->; [lia|auto]. Qed.
Lemma fresh_nice t : Inv t -> nice (EStr (length (strs t))).
Proof. intros (_ & _ & O & _) E. apply O, nth_error_bound in E. lia. Qed.
Lemma inv_grows t t' : grows t t' -> Inv t -> Inv t'.
Proof.
  intros G (L & E & O & D). pose proof G as (V & _). unfold Inv. rewrite V. repeat split; auto.
  intros r Er. eapply grows_str; eauto.
Qed.
Lemma wrote_inv t d v t' : wf t -> Inv t -> dom d -> wrote t d v t' -> match v with ERef _ => False | _ => True end -> Inv t'.
Proof.
  intros Wf I Dd Hw Hv. pose proof I as (L & E & O & D). split; [|split; [|split]].
  - rewrite (wrote_vars_length _ _ _ _ Hw). exact L.
  - rewrite (wrote_other _ _ _ _ k Hw); [exact E|]. intros F. exact (dom_k _ Dd (eq_sym F)).
  - intros r Er. specialize (O r Er). destruct (wrote_strs _ _ _ _ _ _ Hw O) as (o' & E' & _ & S').
    rewrite S' in E'; [exact E'|]. intros F. exact (D _ _ Dd F Er).
  - intros i e Di Ei. destruct (Nat.eq_dec i d) as [->|Nd].
    + destruct (wrote_dest _ _ _ _ Hw) as (e' & Ee & H). rewrite Ee in Ei. inversion Ei; subst e'.
      destruct v; try (subst e; exact Logic.I); try contradiction.
      destruct H as (q & -> & [H|H]).
      * exact (D _ _ Dd H).
      * subst q. apply fresh_nice. exact I.
    + rewrite (wrote_other _ _ _ _ _ Hw Nd) in Ei. exact (D _ _ Di Ei).
Qed.
Lemma stores_inv : forall ds es t t', wf t -> Inv t -> Forall dom ds -> Forall (source t) es -> stores t ds es = Ok t' -> Inv t'.
Proof.
  induction ds as [|d ds IH]; intros es t t' Wf I F K; cbn [stores].
  - intros E; inversion E; subst. exact I.
  - destruct es as [|e es]; [discriminate|]. inversion K as [|? ? K1 K2]; subst. inversion F as [|? ? F1 F2]; subst.
    destruct (store t d e) as [s1| | |] eqn:E1; try discriminate. intros E.
    destruct (store_wrote _ _ _ _ E1) as (v & D & Hw). pose proof (deref_source _ _ _ Wf K1 D) as Hv.
    assert (Hv' : match v with ERef _ => False | _ => True end) by (destruct v; auto).
    eapply IH; [apply (store_kept _ _ _ _ Wf K1 E1)| |exact F2| |exact E].
    + eapply wrote_inv; eauto.
    + eapply Forall_impl; [|exact K2]. intros a. eapply source_kept; eauto.
Qed.
Lemma dest_dom t base v d : Inv t -> (N <= base)%nat -> is_local v -> dest t base v = Ok d -> dom d.
Proof.
  intros (_ & _ & _ & D) B Lv. unfold dest. destruct v as [i|i]; [|contradiction]. cbn [slot].
  assert (Ds : dom (base + i)) by (left; lia).
  destruct (getv t (base + i)) as [e| | |] eqn:E; try discriminate. apply getv_ok in E. pose proof (D _ _ Ds E) as H.
  destruct e; intros X; inversion X; subst; auto.
Qed.
Lemma dests_dom t base : forall vs ds, Inv t -> (N <= base)%nat -> Forall is_local vs -> dests t base vs = Ok ds -> Forall dom ds.
Proof.
  induction vs as [|v vs IH]; intros ds I B F; cbn [dests].
  - intros E; inversion E; subst. constructor.
  - inversion F as [|? ? F1 F2]; subst. destruct (dest t base v) as [d| | |] eqn:E1; try discriminate.
    destruct (dests t base vs) as [ds'| | |] eqn:E2; try discriminate. intros E; inversion E; subst. constructor; [|auto].
    eapply dest_dom; eauto.
Qed.

(** The element pushed for an argument. *)
Definition aok (t : st) (b : bool) (e : elem) : Prop :=
  match e with
  | EPtr i => (b = true -> dom i) /\ forall r, nth_error (vars t) i = Some (EStr r) -> e0 <> EStr r
  | ERef j => b = true -> dom j
  | EStr r => (exists o, nth_error (strs t) r = Some o /\ konst o = true) \/ e0 <> EStr r
  | _ => True
  end.
Lemma aok_grows t t' b e : grows t t' -> aok t b e -> aok t' b e.
Proof.
  intros G. pose proof G as (V & _). destruct e; cbn [aok]; auto.
  - intros [(o & H & Ho)|H]; [left|right; exact H]. exists o. split; [eapply grows_str; eauto|exact Ho].
  - rewrite V. auto.
Qed.
Lemma value_aok t base r t' e b : Inv t -> rhs_ok t r -> (forall v, r <> RLeaf (LVar v)) -> arg_elem t base r = Ok (t', e) -> aok t' b e.
Proof.
  intros I K Nv. unfold PassModel.arg_elem, PassModel.eval. destruct r as [[v|l]|o x y].
  - destruct (Nv v eq_refl).
  - cbn [load]. intros E; inversion E; subst. cbn [rhs_ok leaf_ok] in K. destruct e; cbn [aok lit_ok] in *; auto; contradiction.
  - destruct (load t base x) as [ex| | |]; try discriminate. destruct (load t base y) as [ey| | |]; try discriminate.
    intros E. destruct (pushed_spec _ _ _ _ E) as (G & H). destruct e; cbn [aok] in *; auto; try contradiction.
    right. destruct H as (-> & _). apply (fresh_nice _ I).
Qed.
Lemma arg_aok t base r t' e b : Inv t -> (N <= base)%nat -> rhs_ok t r ->
  match r with RLeaf (LVar v) => is_local v | _ => True end -> arg_elem t base r = Ok (t', e) -> aok t' b e.
Proof.
  intros I B K Lr E. destruct r as [[v|l]|o x y]; try (eapply value_aok; eauto; intros; discriminate).
  cbn in Lr. destruct v as [i|]; [|contradiction]. cbn [PassModel.arg_elem slot] in E.
  destruct (getv t (base + i)) as [a| | |] eqn:Ea; try discriminate. apply getv_ok in Ea.
  assert (Ds : dom (base + i)) by (left; lia). pose proof (proj2 (proj2 (proj2 I)) _ _ Ds Ea) as H.
  destruct a; inversion E; subst; cbn [aok]; try (split; [auto|]; intros q Q; rewrite Ea in Q; try discriminate).
  - inversion Q; subst. exact H.
  - intros _. exact H.
Qed.
Definition loc_arg (a : bool * rhs) : Prop := match snd a with RLeaf (LVar v) => is_local v | _ => True end.
Definition aoks (t : st) (args : list (bool * rhs)) (es : list elem) : Prop := Forall2 (fun a e => aok t (fst a) e) args es.
Lemma aoks_grows t t' args es : grows t t' -> aoks t args es -> aoks t' args es.
Proof. intros G H. unfold aoks in *. induction H; constructor; auto. eapply aok_grows; eauto. Qed.
Lemma args_aok base : forall args t t' es, wf t -> Inv t -> (N <= base)%nat -> Forall (fun a => rhs_ok t (snd a)) args ->
  Forall loc_arg args -> arg_elems t base args = Ok (t', es) -> aoks t' args es.
Proof.
  induction args as [|(b, r) args IH]; intros t t' es Wf I B K F; cbn [PassModel.arg_elems].
  - intros E; inversion E; subst. constructor.
  - inversion K as [|? ? K1 K2]; subst. inversion F as [|? ? F1 F2]; subst. cbn [snd] in *.
    destruct (arg_elem t base r) as [[t1 e]| | |] eqn:E1; try discriminate.
    destruct (arg_elems t1 base args) as [[t2 es']| | |] eqn:E2; try discriminate.
    intros E; inversion E; subst. pose proof (arg_elem_grows _ _ _ _ _ E1) as G1.
    destruct (arg_elems_grows _ _ _ _ _ E2) as (G2 & _). constructor.
    + eapply aok_grows; [exact G2|]. eapply arg_aok; eauto.
    + eapply IH; [exact (grows_wf _ _ G1 Wf)|exact (inv_grows _ _ G1 I)|exact B| |exact F2|exact E2].
      eapply Forall_impl; [|exact K2]. intros a. apply rhs_grows. exact G1.
Qed.
(** [Inv] without the part about [W]: enough for the arguments of the outermost call. *)
Definition holds_k (t : st) : Prop := forall r, e0 = EStr r -> nth_error (strs t) r = Some o0.
Lemma pass_nice t b e t' p : holds_k t -> aok t b e -> pass t b e = Ok (t', p) -> nice p.
Proof.
  intros H A. unfold pass. destruct b.
  - destruct e; try discriminate; intros E; inversion E; subst; cbn in *; [auto|]. apply A. reflexivity.
  - assert (S1 : forall q, (exists o, nth_error (strs t) q = Some o /\ konst o = true) \/ e0 <> EStr q ->
      match gets t q with
      | Ok o => if konst o then let (s', n) := new_str t (txt o) in Ok (s', EStr n) else Ok (t, EStr q)
      | _ => UB
      end = Ok (t', p) -> nice p).
    { intros q Hq. destruct (gets t q) as [o| | |] eqn:Go; try discriminate. apply gets_ok in Go. destruct (konst o) eqn:Ko.
      - unfold new_str. intros E; inversion E; subst. intros F. apply H, nth_error_bound in F. lia.
      - intros E; inversion E; subst. destruct Hq as [(o' & F & Fk)|Hq]; [congruence|exact Hq]. }
    destruct e; cbn [aok] in A; try (intros E; inversion E; subst; exact Logic.I).
    + intros E. exact (S1 _ A E).
    + destruct (getv t i) as [a| | |] eqn:Ea; try discriminate. apply getv_ok in Ea. destruct A as (_ & A).
      destruct a; try (intros E; inversion E; subst; exact Logic.I). intros E. exact (S1 _ (or_intror (A _ Ea)) E).
Qed.
Lemma pass_all_nice : forall args es t t' ps, holds_k t -> aoks t args es -> pass_all t args es = Ok (t', ps) -> Forall nice ps.
Proof.
  induction args as [|(b, r) args IH]; intros es t t' ps H A; inversion A as [|? ? ? ? A1 A2]; subst; cbn [pass_all].
  - intros E; inversion E; subst. constructor.
  - destruct (pass t b y) as [[t1 p]| | |] eqn:E1; try discriminate.
    destruct (pass_all t1 args l') as [[t2 ps']| | |] eqn:E2; try discriminate.
    intros E; inversion E; subst. pose proof (pass_grows _ _ _ _ _ E1) as G1. constructor.
    + eapply pass_nice; eauto.
    + eapply IH; [|eapply aoks_grows; eauto|exact E2]. intros q Q. eapply grows_str; eauto.
Qed.
Lemma enter_inv t ps n : Inv t -> Forall nice ps -> Inv (enter t ps n).
Proof.
  intros (L & E & O & D) F. split; [|split; [|split]].
  - cbn [enter vars]. rewrite app_length. lia.
  - rewrite enter_old by lia. exact E.
  - exact O.
  - intros i e Di Ei. destruct (Nat.lt_ge_cases i (length (vars t))) as [B|B].
    + rewrite enter_old in Ei by exact B. exact (D _ _ Di Ei).
    + destruct (enter_new _ _ _ _ _ B Ei) as [H| ->]; [|exact I]. rewrite Forall_forall in F. auto.
Qed.
Lemma leave_inv n t : (N <= n)%nat -> (n <= length (vars t))%nat -> Inv t -> Inv (leave n t).
Proof.
  intros B Bn (L & E & O & D). split; [|split; [|split]].
  - cbn [leave vars]. rewrite firstn_length_le by lia. exact B.
  - cbn [leave vars]. rewrite nth_error_firstn by lia. exact E.
  - exact O.
  - intros i e Di Ei. cbn [leave vars] in Ei. destruct (Nat.lt_ge_cases i n) as [H|H].
    + rewrite nth_error_firstn in Ei by exact H. exact (D _ _ Di Ei).
    + rewrite nth_error_firstn_out in Ei by exact H. discriminate.
Qed.
Lemma local_only_call args n body : local_only (CCall args n body) <-> Forall loc_arg args /\ Forall local_only body.
Proof.
  cbn [local_only]. split; intros (A & B); (split; [exact A|]).
  - clear A. induction body as [|c body IH]; [constructor|]. destruct B. constructor; auto.
  - clear A. induction body as [|c body IH]; [exact I|]. inversion B; subst. split; [assumption|apply IH; assumption].
Qed.

Definition iso (c : cmd) : Prop := forall base t t', wf t -> cmd_ok t c -> Inv t -> (N <= base)%nat -> local_only c ->
  exec base c t = Ok t' -> Inv t'.
Lemma run_iso_of : forall body base t t', Forall iso body -> wf t -> cmds_ok t body -> Inv t -> (N <= base)%nat ->
  Forall local_only body -> run base body t = Ok t' -> Inv t'.
Proof.
  induction body as [|c body IH]; intros base t t' F Wf K I B Lo E; cbn [PassModel.run] in E.
  - inversion E; subst. exact I.
  - inversion F; subst. inversion K as [|? ? K1 K2]; subst. inversion Lo; subst.
    destruct (exec base c t) as [t1| | |] eqn:Ec; try discriminate. pose proof (exec_kept _ _ _ _ Wf K1 Ec) as H.
    apply (IH base t1 t'); auto; [apply H| |exact (H1 _ _ _ Wf K1 I B H3 Ec)].
    eapply Forall_impl; [|exact K2]. intros a. apply mono_cmd. apply H.
Qed.
Lemma exec_iso : forall c, iso c.
Proof.
  induction c as [vs rs|args n body IH] using cmd_induct; intros base s s' Wf K I B Lo E.
  - rewrite exec_set in E. destruct (evals s base rs) as [[s1 es]| | |] eqn:E1; try discriminate.
    destruct (dests s1 base vs) as [ds| | |] eqn:E2; try discriminate.
    destruct (evals_grows _ _ _ _ _ E1) as (G & _). pose proof (inv_grows _ _ G I) as I1.
    eapply stores_inv; [exact (grows_wf _ _ G Wf)|exact I1| | |exact E].
    + apply Forall_rev. eapply dests_dom; eauto.
    + apply Forall_rev. eapply evals_source; eauto.
  - apply cmd_ok_call in K. destruct K as (Ka & Kb). apply local_only_call in Lo. destruct Lo as (La & Lb). rewrite exec_call in E.
    destruct (arg_elems s base args) as [[s1 es]| | |] eqn:E1; try discriminate.
    destruct (pass_all s1 args es) as [[s2 ps]| | |] eqn:E2; try discriminate.
    destruct (arg_elems_grows _ _ _ _ _ E1) as (G1 & L1). destruct (pass_all_grows _ _ _ _ _ L1 E2) as (G2 & L2).
    pose proof (grows_wf _ _ G1 Wf) as W1. pose proof (grows_wf _ _ G2 W1) as W2.
    pose proof (inv_grows _ _ G1 I) as I1. pose proof (inv_grows _ _ G2 I1) as I2.
    assert (P : Forall (par_good s2) ps).
    { apply (pass_all_good args es s1 s2 ps); auto. exact (arg_elems_good base args s s1 es Wf Ka E1). }
    assert (Pn : Forall nice ps).
    { apply (pass_all_nice args es s1 s2 ps); auto; [exact (proj1 (proj2 (proj2 I1)))|]. exact (args_aok base args s s1 es Wf I B Ka La E1). }
    pose proof (enter_wf s2 ps n W2 P) as We. pose proof (enter_inv s2 ps n I2 Pn) as Ie.
    assert (Kc : cmds_ok (enter s2 ps n) body).
    { eapply Forall_impl; [|exact Kb]. intros a. apply mono_cmd. eapply mono_trans; [apply grows_mono; exact (grows_trans _ _ _ G1 G2)|].
      intros r o Er. exists o. split; auto. }
    destruct (run (length (vars s2)) body (enter s2 ps n)) as [t| | |] eqn:E3; try discriminate. inversion E; subst s'.
    pose proof (proj1 I2) as LN.
    pose proof (run_iso_of _ _ _ _ IH We Kc Ie LN Lb E3) as It.
    pose proof (run_kept _ _ _ _ We Kc E3) as (_ & Lt & _).
    apply leave_inv; auto. rewrite Lt. cbn [enter vars]. rewrite app_length. lia.
Qed.
End Iso.

Theorem call_isolated : forall base args n body s s' k,
  wf s -> cmd_ok s (CCall args n body) -> Forall local_only body -> (k < length (vars s))%nat ->
  ~ passed s base args true k ->
  (forall b d r, passed s base args b d -> nth_error (vars s) d = Some (EStr r) -> nth_error (vars s) k <> Some (EStr r)) ->
  exec base (CCall args n body) s = Ok s' -> obs s' k = obs s k.
Proof.
  intros base args n body s s' k Wf K Lb Bk H1 H2 E.
  destruct (nth_error (vars s) k) as [e0|] eqn:Ek; [|apply nth_error_None in Ek; lia].
  assert (exists o0, forall r, e0 = EStr r -> nth_error (strs s) r = Some o0) as (o0 & O).
  { destruct e0; try (exists (SO [] false); intros q Q; discriminate). destruct (Wf _ _ Ek) as (o & Ho & _).
    exists o. intros q Q. inversion Q; subst. exact Ho. }
  set (Wp := passed s base args true). set (N := length (vars s)).
  assert (I : Inv N k Wp e0 o0 s).
  { split; [apply Nat.le_refl|]. split; [exact Ek|]. split; [exact O|]. intros i e [Hi|Hi] Ei.
    - apply nth_error_bound in Ei. unfold N in Hi. lia.
    - destruct e; cbn; auto.
      + intros ->. exact (H2 true i r Hi Ei eq_refl).
      + exfalso. destruct Hi as (v & _ & Hd). unfold dest in Hd. destruct (getv s (slot base v)) as [a| | |] eqn:Ea; try discriminate.
        apply getv_ok in Ea. pose proof (Wf _ _ Ea) as Wa. destruct a; inversion Hd; subst; try congruence.
        destruct Wa as (_ & Wa). exact (Wa _ Ei). }
  apply cmd_ok_call in K. destruct K as (Ka & Kb). rewrite exec_call in E.
  destruct (arg_elems s base args) as [[s1 es]| | |] eqn:E1; try discriminate.
  destruct (pass_all s1 args es) as [[s2 ps]| | |] eqn:E2; try discriminate.
  destruct (arg_elems_grows _ _ _ _ _ E1) as (G1 & L1). destruct (pass_all_grows _ _ _ _ _ L1 E2) as (G2 & L2).
  pose proof (grows_wf _ _ G1 Wf) as W1. pose proof (grows_wf _ _ G2 W1) as W2.
  pose proof (inv_grows _ _ _ _ _ _ _ G1 I) as I1. pose proof (inv_grows _ _ _ _ _ _ _ G2 I1) as I2.
  assert (P : Forall (par_good s2) ps).
  { apply (pass_all_good args es s1 s2 ps); auto. exact (arg_elems_good base args s s1 es Wf Ka E1). }
  assert (A : aoks N Wp e0 s1 args es).
  { assert (Sub : forall b v, In (b, RLeaf (LVar v)) args -> In (b, RLeaf (LVar v)) args) by auto. revert Sub.
    assert (X : forall args' t es', incl args' args -> grows s t -> Inv N k Wp e0 o0 t -> Forall (fun a => rhs_ok t (snd a)) args' ->
      forall t', arg_elems t base args' = Ok (t', es') -> aoks N Wp e0 t' args' es').
    { clear E1 E2 G1 G2 W1 W2 I1 I2 P E L1 L2 Ka. induction args' as [|(b, r) args' IHa]; intros t es' Sub G It Kt t'; cbn [PassModel.arg_elems].
      - intros X; inversion X; subst. constructor.
      - inversion Kt as [|? ? K1 K2]; subst. cbn [snd] in K1.
        destruct (arg_elem t base r) as [[t1 e]| | |] eqn:X1; try discriminate.
        destruct (arg_elems t1 base args') as [[t2 es2]| | |] eqn:X2; try discriminate.
        intros X; inversion X; subst. pose proof (arg_elem_grows _ _ _ _ _ X1) as Gt.
        destruct (arg_elems_grows _ _ _ _ _ X2) as (Gt2 & _). constructor.
        + eapply aok_grows; [exact Gt2|]. cbn [fst].
          destruct r as [[v|l]|o x y]; try (eapply value_aok; eauto; intros; discriminate).
          assert (In (b, RLeaf (LVar v)) args) as Hin by (apply Sub; left; reflexivity).
          cbn [PassModel.arg_elem] in X1. unfold getv in X1. destruct G as (V & _). rewrite V in X1.
          destruct (nth_error (vars s) (slot base v)) as [a|] eqn:Ea; [|discriminate].
          assert (Pd : exists d, dest s base v = Ok d /\ d = match a with ERef j => j | _ => slot base v end).
          { unfold dest, getv. rewrite Ea. destruct a; eauto. }
          destruct Pd as (d & Pd & Hd).
          assert (Pp : passed s base args b d) by (exists v; auto).
          destruct a; inversion X1; subst; cbn [aok]; try (intros ->; right; exact Pp);
            (split; [intros ->; right; exact Pp|]; intros q Q; rewrite V in Q; intros F; exact (H2 _ _ _ Pp Q (f_equal Some F))).
        + eapply IHa; [intros z Hz; apply Sub; right; exact Hz|exact (grows_trans _ _ _ G Gt)|exact (inv_grows _ _ _ _ _ _ _ Gt It)| |exact X2].
          eapply Forall_impl; [|exact K2]. intros a. apply rhs_grows. exact Gt. }
    intros _. exact (X args s es (incl_refl _) (grows_refl s) I Ka s1 E1). }
  assert (Pn : Forall (nice N Wp e0) ps).
  { eapply pass_all_nice; [exact Bk|exact (proj1 (proj2 (proj2 I1)))|exact A|exact E2]. }
  pose proof (enter_wf s2 ps n W2 P) as We. pose proof (enter_inv N k Wp e0 o0 Bk s2 ps n I2 Pn) as Ie.
  assert (Kc : cmds_ok (enter s2 ps n) body).
  { eapply Forall_impl; [|exact Kb]. intros a. apply mono_cmd. eapply mono_trans; [apply grows_mono; exact (grows_trans _ _ _ G1 G2)|].
    intros r o Er. exists o. split; auto. }
  destruct (run (length (vars s2)) body (enter s2 ps n)) as [t| | |] eqn:E3; try discriminate. inversion E; subst s'.
  assert (It : Inv N k Wp e0 o0 t).
  { eapply (run_iso_of N k Wp e0 o0 body _ _ _); [|exact We|exact Kc|exact Ie|exact (proj1 I2)|exact Lb|exact E3].
    apply Forall_forall. intros c _. apply exec_iso; auto. }
  destruct It as (_ & Et & Ot & _). unfold obs. cbn [leave vars].
  destruct G1 as (V1 & _). destruct G2 as (V2 & _).
  rewrite nth_error_firstn by (rewrite V2, V1; exact Bk). rewrite Et, Ek. destruct e0; cbn [value leave strs]; auto.
  rewrite (Ot _ eq_refl), (O _ eq_refl). reflexivity.
Qed.
End Run.
