(** Lemmas for [NativeProps]. *)
From Coq Require Import List ZArith Bool String SpecFloat Lia.
From Verif Require Import FloatModel StringModel NativeModel NativeSpec.
Import ListNotations.
Local Open Scope Z_scope.

Lemma ranked_bases w : ranked w -> exists rank : tid -> nat,
  (forall t, (rank t <= ntypes w)%nat) /\ (forall t b, In b (tbases (info w t)) -> (rank b < rank t)%nat).
Proof. exact (fun H => H). Qed.

Lemma extends_from_sound w : forall n t u, extends_from n w t u = true -> Extends w t u.
Proof.
  induction n; intros t u H; cbn [extends_from] in H; apply orb_true_iff in H; destruct H as [H|H].
  - apply Z.eqb_eq in H; subst; constructor.
  - discriminate.
  - apply Z.eqb_eq in H; subst; constructor.
  - apply existsb_exists in H; destruct H as (b & Hb & H). eapply Ext_base; eauto.
Qed.

Lemma extends_from_refl w : forall n t, extends_from n w t t = true.
Proof. intros [|n] t; cbn [extends_from]; now rewrite Z.eqb_refl. Qed.

Lemma extends_from_complete w rank :
  (forall t b, In b (tbases (info w t)) -> (rank b < rank t)%nat) ->
  forall t u, Extends w t u -> forall n, (rank t <= n)%nat -> extends_from n w t u = true.
Proof.
  intros HR t u H; induction H as [t|t b u Hb H IH]; intros n Hn; [apply extends_from_refl|].
  pose proof (HR _ _ Hb) as L. destruct n as [|n]; [lia|].
  cbn [extends_from]. apply orb_true_iff; right. apply existsb_exists; exists b; split; [exact Hb|].
  apply IH; lia.
Qed.

Lemma extends_iff w : ranked w -> forall t u, extends w t u = true <-> Extends w t u.
Proof.
  intros (rank & HB & HR) t u; unfold extends; split; [apply extends_from_sound|].
  intro H; eapply extends_from_complete; eauto.
Qed.

Lemma native_up_sound w : forall n t c, native_up n w t = Some c -> NativeOf w t c.
Proof.
  induction n; intros t c H; cbn [native_up] in H;
    (destruct (tnative (info w t)) eqn:E; [injection H as <-; now constructor|]).
  - discriminate.
  - destruct (tbases (info w t)) as [|b r] eqn:B; [discriminate|]. eapply NO_base; eauto.
Qed.

Lemma native_up_complete w rank :
  (forall t b, In b (tbases (info w t)) -> (rank b < rank t)%nat) ->
  forall t c, NativeOf w t c -> forall n, (rank t <= n)%nat -> native_up n w t = Some c.
Proof.
  intros HR t c H; induction H as [t E|t b r c E B H IH]; intros n Hn.
  - destruct n; cbn [native_up]; now rewrite E.
  - assert (L : (rank b < rank t)%nat) by (apply HR; rewrite B; now left).
    destruct n as [|n]; [lia|]. cbn [native_up]; rewrite E, B. apply IH; lia.
Qed.

Lemma native_class_iff w o : ranked w -> forall c, native_class w o = Some c <-> NativeOf w (otype o) c.
Proof.
  intros (rank & HB & HR) c; unfold native_class; split; [apply native_up_sound|].
  intro H; eapply native_up_complete; eauto.
Qed.

Lemma script_only_none w o : ranked w -> script_only w o <-> T_CLASS_OBJECT <= otype o /\ native_class w o = None.
Proof.
  intro HR; unfold script_only, class_object; split; intros [A B]; split; auto.
  - destruct (native_class w o) eqn:E; [|reflexivity]. apply native_class_iff in E; auto. now destruct (B t).
  - intros c H; apply native_class_iff in H; auto. congruence.
Qed.

(** Reaching a native type from a class goes through its native class. *)
Lemma extends_native w : wf_world w -> forall t u, Extends w t u -> tnative (info w u) = true ->
  exists c, NativeOf w t c /\ Extends w c u.
Proof.
  intros (_ & HS & _) t u H; induction H as [t|t b u Hb H IH]; intro N.
  - exists t; split; constructor; auto.
  - destruct (tnative (info w t)) eqn:E.
    + exists t; split; [now constructor|]. eapply Ext_base; eauto.
    + destruct (tbases (info w t)) as [|b1 [|b2 r]] eqn:B; [easy| |now rewrite (HS _ _ _ _ B) in E].
      destruct Hb as [<-|[]]. destruct (IH N) as (c & C1 & C2). exists c; split; [|exact C2].
      eapply NO_base; eauto.
Qed.

Lemma extends_class w : wf_world w -> forall t u, Extends w t u -> T_CLASS_OBJECT <= t -> T_CLASS_OBJECT <= u.
Proof. intros (_ & _ & HC) t u H; induction H; intro L; [exact L|]. apply IHExtends. eapply HC; eauto. Qed.

(** ** Choosing *)
Lemma forall2b_iff {A B} (f : A -> B -> bool) (P : A -> B -> Prop) :
  (forall a b, f a b = true <-> P a b) -> forall l m, forall2b f l m = true <-> Forall2 P l m.
Proof.
  intros H; induction l as [|a l IH]; intros [|b m]; cbn [forall2b]; split; intro E;
    try discriminate; try (now inversion E); try constructor.
  - apply andb_true_iff in E; now apply H.
  - apply andb_true_iff in E; now apply IH.
  - inversion E; subst. apply andb_true_iff; split; [now apply H|now apply IH].
Qed.

Lemma forall2b_length {A B} (f : A -> B -> bool) : forall l m, forall2b f l m = true -> List.length l = List.length m.
Proof.
  induction l as [|a l IH]; intros [|b m]; cbn [forall2b]; intro E; try discriminate; [reflexivity|].
  apply andb_true_iff in E. cbn [List.length]. f_equal; now apply IH.
Qed.

Lemma forall2_length {A B} (P : A -> B -> Prop) l m : Forall2 P l m -> List.length l = List.length m.
Proof. induction 1; cbn [List.length]; congruence. Qed.

Lemma eqb_in p l : existsb (Z.eqb p) l = true <-> In p l.
Proof.
  rewrite existsb_exists; split.
  - intros (x & Hx & E); apply Z.eqb_eq in E; now subst.
  - intro H; exists p; split; [exact H|apply Z.eqb_refl].
Qed.

Lemma find_accepts_iff w : ranked w -> forall v p, find_accepts w v p = true <-> Suits w v p.
Proof.
  intros HR v p; unfold find_accepts. destruct (p =? T_STACK_ELEMENT) eqn:E.
  - apply Z.eqb_eq in E; subst; split; [intros _; constructor|reflexivity].
  - apply Z.eqb_neq in E. split.
    + destruct v; intro H; try discriminate.
      * constructor. cbn [In]. rewrite !orb_true_iff, !Z.eqb_eq in H. intuition.
      * constructor. cbn [In]. rewrite !orb_true_iff, !Z.eqb_eq in H. intuition.
      * apply Z.eqb_eq in H; subst; constructor.
      * apply Z.eqb_eq in H; subst; constructor.
      * destruct (otype o =? T_STRING_OBJECT) eqn:S.
        -- apply Z.eqb_eq in S. apply Su_string; auto. cbn [In]. rewrite !orb_true_iff, !Z.eqb_eq in H. intuition.
        -- apply Z.eqb_neq in S. apply Su_object; auto. now apply extends_iff.
    + intro H; inversion H; subst; try (now destruct E); cbn [In] in *; rewrite ?orb_true_iff, ?Z.eqb_eq.
      * intuition.
      * intuition.
      * reflexivity.
      * reflexivity.
      * rewrite H0, Z.eqb_refl, !orb_true_iff, !Z.eqb_eq; intuition.
      * apply Z.eqb_neq in H0; rewrite H0. now apply extends_iff.
Qed.

Lemma candidate_iff w : ranked w -> forall name args f, candidate w name args f = true <-> suitable w name args f.
Proof.
  intros HR name args f; unfold candidate, suitable. rewrite !andb_true_iff, String.eqb_eq.
  rewrite (forall2b_iff (find_accepts w) (Suits w) (find_accepts_iff w HR)). tauto.
Qed.

Lemma find_rev_last {A} (p : A -> bool) : forall l a,
  find p (rev l) = Some a <-> exists l1 l2, l = l1 ++ a :: l2 /\ p a = true /\ forall b, In b l2 -> p b = false.
Proof.
  intros l a; split.
  - revert a; induction l as [|x l IH] using rev_ind; intros a H; [discriminate|].
    rewrite rev_unit in H; cbn [find] in H. destruct (p x) eqn:E.
    + injection H as <-. exists l, []; repeat split; auto. intros b [].
    + destruct (IH _ H) as (l1 & l2 & -> & Ha & Hb). exists l1, (l2 ++ [x]); repeat split; auto.
      * now rewrite <- app_assoc.
      * intros b Hb'. apply in_app_iff in Hb'; destruct Hb' as [Hb'|[<-|[]]]; auto.
  - intros (l1 & l2 & -> & Ha & Hb). rewrite rev_app_distr; cbn [rev]. rewrite <- app_assoc.
    assert (G : forall k, find p (rev l2 ++ [a] ++ k) = Some a).
    { intro k. assert (F : forall m, (forall b, In b m -> p b = false) -> find p (m ++ [a] ++ k) = Some a).
      { induction m as [|y m IHm]; intro Hm; cbn [find app]; [now rewrite Ha|].
        rewrite (Hm y) by now left. apply IHm; intros; apply Hm; now right. }
      apply F. intros b Hb'. apply Hb. now apply in_rev. }
    apply G.
Qed.

Lemma find_rev_none {A} (p : A -> bool) : forall l, find p (rev l) = None <-> forall b, In b l -> p b = false.
Proof.
  intro l; split.
  - intros H b Hb. eapply find_none; [exact H|]. now apply -> in_rev.
  - intro H. destruct (find p (rev l)) eqn:E; [|reflexivity].
    apply find_some in E; destruct E as [E1 E2]. apply in_rev in E1. rewrite (H _ E1) in E2; discriminate.
Qed.

(** ** Handing over *)
Lemma trunc_cut f z : trunc f = Ok z -> cut f z.
Proof.
  destruct f as [s|s| |s m e]; cbn [trunc cut]; intro H; try discriminate; [now injection H as <-|].
  destruct ((_ <=? _) && (_ <? _)) eqn:R in H; [|discriminate]. injection H as <-. clear R.
  set (a := if 0 <=? e then Zpos m * 2 ^ e else Zpos m / 2 ^ (- e)).
  exists a. destruct (0 <=? e) eqn:E; subst a.
  - apply Z.leb_le in E. assert (P : 0 < 2 ^ e) by now apply Z.pow_pos_nonneg.
    repeat split; auto; try lia; rewrite (Z.max_l 0 (- e)), (Z.max_r 0 e) by lia; cbn [Z.pow]; lia.
  - apply Z.leb_gt in E. assert (P : 0 < 2 ^ (- e)) by (apply Z.pow_pos_nonneg; lia).
    rewrite (Z.max_r 0 (- e)), (Z.max_l 0 e) by lia. change (2 ^ 0) with 1. rewrite Z.mul_1_r.
    pose proof (Z.div_mod (Zpos m) (2 ^ (- e)) ltac:(lia)) as D.
    pose proof (Z.mod_pos_bound (Zpos m) (2 ^ (- e)) P) as M.
    repeat split; auto; [apply Z.div_pos; lia|nia|nia].
Qed.

Definition okp (w : world) (p : tid) : Prop := p < T_CLASS_OBJECT \/ tnative (info w p) = true.

Lemma pass_object_typed w o p q : ranked w -> okp w p -> (p = T_CLASS_OBJECT \/ ~ script_only w o) ->
  pass_object w o p = Ok q -> Typed w p q.
Proof.
  intros HR OK NS; unfold pass_object. intro H.
  destruct (p =? otype o) eqn:E1.
  - apply Z.eqb_eq in E1. destruct (T_CLASS_OBJECT <=? otype o) eqn:E2.
    + apply Z.leb_le in E2. destruct (native_class w o) as [c|] eqn:C; injection H as <-; [|constructor].
      subst p. destruct OK as [OK|OK]; [lia|]. eapply Ty_native; [now apply NO_self|constructor].
    + apply Z.leb_gt in E2. injection H as <-. subst p. apply Ty_script. unfold class_object; lia.
  - apply Z.eqb_neq in E1. destruct (otype o =? T_STRING_OBJECT) eqn:E2.
    + apply Z.eqb_eq in E2.
      destruct (p =? T_STRING_PTR) eqn:P1; [apply Z.eqb_eq in P1; injection H as <-; subst p; now constructor|].
      destruct (p =? T_STRING) eqn:P2; [apply Z.eqb_eq in P2; injection H as <-; subst p; now constructor|].
      destruct (p =? T_CONST_CHAR_PTR) eqn:P3; [apply Z.eqb_eq in P3; injection H as <-; subst p; now constructor|].
      discriminate.
    + destruct (T_CLASS_OBJECT <=? otype o) eqn:E3; [|discriminate]. apply Z.leb_le in E3.
      destruct (p =? T_CLASS_OBJECT) eqn:P.
      * injection H as <-. apply Z.eqb_eq in P; subst p. now apply Ty_class.
      * apply Z.eqb_neq in P. destruct NS as [NS|NS]; [now destruct P|].
        destruct (native_class w o) as [c|] eqn:C.
        -- destruct (extends w c p) eqn:X; [|discriminate]. injection H as <-.
           apply native_class_iff in C; auto. apply extends_iff in X; auto. eapply Ty_native; eauto.
        -- exfalso; apply NS, script_only_none; auto.
Qed.

Lemma stack_to_typed w v p q : ranked w -> okp w p -> (~ unchecked w v) ->
  stack_to w v p = Ok q -> Typed w p q.
Proof.
  intros HR OK NU. unfold stack_to. destruct (p =? T_STACK_ELEMENT) eqn:E.
  - apply Z.eqb_eq in E; subst p. intro H; injection H as <-; constructor.
  - destruct v; intro H; try discriminate.
    + injection H as <-; constructor.
    + destruct (p =? T_INT) eqn:P1; [apply Z.eqb_eq in P1; injection H as <-; subst p; constructor|].
      destruct (p =? T_INT_PTR) eqn:P2; [apply Z.eqb_eq in P2; injection H as <-; subst p; constructor|discriminate].
    + destruct (p =? T_FLOAT) eqn:P1; [apply Z.eqb_eq in P1; injection H as <-; subst p; constructor|].
      destruct (p =? T_FLOAT_PTR) eqn:P2; [apply Z.eqb_eq in P2; injection H as <-; subst p; constructor|].
      destruct (p =? T_INT) eqn:P3; [|discriminate].
      destruct (trunc f); try discriminate. apply Z.eqb_eq in P3; injection H as <-; subst p; constructor.
    + destruct (p =? T_BOOL) eqn:P1; [apply Z.eqb_eq in P1; injection H as <-; subst p; constructor|].
      destruct (p =? T_BOOL_PTR) eqn:P2; [apply Z.eqb_eq in P2; injection H as <-; subst p; constructor|discriminate].
    + now destruct NU.
    + eapply pass_object_typed; eauto.
    + eapply pass_object_typed; eauto.
Qed.

Lemma pass_arg_typed w v p q : ranked w -> okp w p -> ~ unchecked w v ->
  pass_arg w v p = Ok q -> Typed w p q.
Proof.
  intros HR OK NU. unfold pass_arg. destruct v; try (now apply stack_to_typed).
  destruct (p =? T_FLOAT_PTR) eqn:P; [|now apply stack_to_typed].
  intro H; injection H as <-. apply Z.eqb_eq in P; subst p; constructor.
Qed.

(** An argument that suits its parameter is unchecked only if it is of the right type. *)
Lemma suits_typed w v p q : wf_world w -> okp w p -> Suits w v p -> pass_arg w v p = Ok q -> Typed w p q.
Proof.
  intros WF OK SU H. assert (HR : ranked w) by apply WF.
  inversion SU; subst; try (now eapply pass_arg_typed; eauto).
  - unfold pass_arg, stack_to in H. destruct v; cbn in H; injection H as <-; constructor.
  - unfold pass_arg, stack_to in H. cbn in H. injection H as <-. constructor.
  - eapply pass_arg_typed; eauto. cbn [unchecked]. intros [C _]. unfold class_object in C.
    rewrite H0 in C. unfold T_CLASS_OBJECT, T_STRING_OBJECT in C; lia.
  - eapply pass_arg_typed; eauto. cbn [unchecked]. intros [C NC].
    pose proof (extends_class w WF _ _ H1 C) as L. destruct OK as [OK|OK]; [lia|].
    destruct (extends_native w WF _ _ H1 OK) as (c & C1 & _). now destruct (NC c).
Qed.

Lemma pass_args_typed w : forall args ps qs,
  Forall2 (fun v p => forall q, pass_arg w v p = Ok q -> Typed w p q) args ps ->
  pass_args w args ps = Ok qs -> Forall2 (Typed w) ps qs.
Proof.
  intros args ps qs H; revert qs; induction H as [|v p args ps Hp H IH]; intros qs E; cbn [pass_args] in E.
  - injection E as <-; constructor.
  - destruct (pass_arg w v p) as [q| | |] eqn:Q; cbn [rbind] in E; try discriminate.
    destruct (pass_args w args ps) as [qs'| | |] eqn:QS; cbn [rbind] in E; try discriminate.
    injection E as <-. constructor; auto.
Qed.

Lemma exec_native_ok w f this args r : List.length args = List.length (fparams f) ->
  exec_native w f this args = Ok r ->
  rfun r = f /\ rthis r = this /\ (fmember f = true <-> this <> None) /\
  pass_args w args (fparams f) = Ok (rargs r).
Proof.
  unfold exec_native, start_param. intro EL. destruct (fnative f); cbn [negb]; [|discriminate].
  intro H. destruct this as [o|].
  - destruct (fmember f) eqn:M; [|discriminate].
    destruct (_ <? _)%nat; [discriminate|]. destruct (_ =? _)%nat eqn:L in H; cbn [negb] in H; [|discriminate].
    destruct (pass_args w args (fparams f)); cbn [rbind] in H; try discriminate.
    injection H as <-; cbn [rfun rthis rargs]. repeat split; auto; congruence.
  - destruct (_ <? _)%nat; [discriminate|]. destruct (_ =? _)%nat eqn:L in H; cbn [negb] in H; [|discriminate].
    apply Nat.eqb_eq in L. destruct (pass_args w args (fparams f)) eqn:Q; cbn [rbind] in H; try discriminate.
    injection H as <-; cbn [rfun rthis rargs]. destruct (fmember f) eqn:M; [lia|].
    repeat split; auto; congruence.
Qed.

(** What a run of [exec_native] needs to succeed. *)
Lemma exec_native_runs w f this args qs : fnative f = true ->
  List.length args = List.length (fparams f) -> (start_param f + List.length args <= max_args)%nat ->
  (fmember f = true <-> this <> None) -> pass_args w args (fparams f) = Ok qs ->
  exec_native w f this args = Ok (Run f this qs).
Proof.
  intros N L B M Q; unfold exec_native; rewrite N; cbn [negb].
  assert (NB : forall n, n = (start_param f + List.length args)%nat -> (max_args <? n)%nat = false).
  { intros n ->. now apply Nat.ltb_ge. }
  assert (EB : forall n, n = (start_param f + List.length args)%nat -> (start_param f + List.length (fparams f) =? n)%nat = true).
  { intros n ->. rewrite L. apply Nat.eqb_refl. }
  destruct this as [o|].
  - assert (F : fmember f = true) by (apply M; congruence). rewrite F.
    assert (SP : (2 + List.length args)%nat = (start_param f + List.length args)%nat) by (unfold start_param; now rewrite F).
    rewrite (NB _ SP), (EB _ SP), Q. reflexivity.
  - assert (F : fmember f = false) by (destruct (fmember f); [exfalso; now apply (proj1 M eq_refl)|reflexivity]).
    assert (SP : (1 + List.length args)%nat = (start_param f + List.length args)%nat) by (unfold start_param; now rewrite F).
    rewrite (NB _ SP), (EB _ SP), Q. reflexivity.
Qed.

(** ** Call sites *)
Definition fresh (w : world) (c : ncall) : option nfun := find_native w (scope_of w c) (fname (cfun c)) (cargs c).

Lemma deduce_none w c : deduce w None c = (fresh w c, fresh w c).
Proof. unfold deduce, fresh. destruct (find_native _ _ _ _); reflexivity. Qed.

Lemma deduce_cases w s c f s' : deduce w s c = (Some f, s') ->
  s' = Some f /\ ((s = Some f /\ reusable w f (cargs c) = true) \/ fresh w c = Some f).
Proof.
  unfold deduce, fresh. destruct s as [g|].
  - destruct (reusable w g (cargs c)) eqn:R.
    + intro H; injection H as <- <-. auto.
    + destruct (find_native _ _ _ _); intro H; [injection H as <- <-; auto|discriminate].
  - destruct (find_native _ _ _ _); intro H; [injection H as <- <-; auto|discriminate].
Qed.

Lemma deduce_fail w s c s' : deduce w s c = (None, s') -> s' = s /\ fresh w c = None.
Proof.
  unfold deduce, fresh. destruct s as [g|].
  - destruct (reusable w g (cargs c)); [discriminate|]. destruct (find_native _ _ _ _); [discriminate|].
    intro H; now injection H as <-.
  - destruct (find_native _ _ _ _); [discriminate|]. intro H; now injection H as <-.
Qed.

Lemma fresh_in w c f : fresh w c = Some f ->
  In f (scope_of w c) /\ candidate w (fname (cfun c)) (cargs c) f = true.
Proof. unfold fresh, find_native. intro H; apply find_some in H. destruct H as [A B]; split; [now apply in_rev|exact B]. Qed.

Lemma candidate_name w name args f : candidate w name args f = true ->
  fname f = name /\ fnative f = true /\ List.length args = List.length (fparams f).
Proof.
  unfold candidate; rewrite !andb_true_iff, String.eqb_eq. intros [[A B] C]; repeat split; auto.
  eapply forall2b_length; eauto.
Qed.

Lemma filter_two {A} (p : A -> bool) l1 g1 l2 g2 l3 : p g1 = true -> p g2 = true ->
  (1 <? List.length (filter p (l1 ++ g1 :: l2 ++ g2 :: l3)))%nat = true.
Proof.
  intros A1 A2. apply Nat.ltb_lt. rewrite filter_app, app_length. cbn [filter]. rewrite A1; cbn [List.length].
  rewrite filter_app, app_length. cbn [filter]. rewrite A2; cbn [List.length]. lia.
Qed.

Lemma searched_deduced w f : searched w f -> deduced w f = true.
Proof.
  unfold deduced. intros [H|[H|(l1 & g1 & l2 & g2 & l3 & E & A & B)]].
  - now rewrite H.
  - apply Z.eqb_neq in H. rewrite H; cbn [negb]. now rewrite orb_true_r.
  - rewrite E, filter_two; [apply orb_true_r| |]; now apply String.eqb_eq.
Qed.

Lemma not_deduced w f : deduced w f = false -> fmember f = false /\ fowner f = T_MAIN.
Proof.
  unfold deduced. intro H. apply orb_false_iff in H; destruct H as [H _]. apply orb_false_iff in H; destruct H as [A B].
  split; [exact A|]. destruct (fowner f =? T_MAIN) eqn:E; [now apply Z.eqb_eq|discriminate].
Qed.

Lemma call_at_searched w s c : searched w (cfun c) -> call_at w s c =
  match deduce w s c with
  | (Some f, s') => (exec_native w f (crecv c) (cargs c), s')
  | (None, s') => (Thr, s')
  end.
Proof. intro H; unfold call_at; now rewrite (searched_deduced _ _ H). Qed.

(** Every function a site remembers comes from the scope and has the name of some call made
    there before. *)
Definition remembers (P : nfun -> Prop) (s : site) : Prop := match s with Some f => P f | None => True end.

Lemma call_at_inv w (P : nfun -> Prop) s c r s' :
  (forall f, fresh w c = Some f -> P f) -> (deduced w (cfun c) = false -> crecv c = None -> P (cfun c)) ->
  remembers P s -> call_at w s c = (r, s') ->
  remembers P s' /\ forall x, r = Ok x -> P (rfun x) /\ List.length (fparams (rfun x)) = List.length (cargs c)
                                          /\ rthis x = crecv c /\ (fmember (rfun x) = true <-> crecv c <> None)
                                          /\ pass_args w (cargs c) (fparams (rfun x)) = Ok (rargs x).
Proof.
  intros HF HN HS H; unfold call_at in H. destruct (deduced w (cfun c)) eqn:DD.
  2: { injection H as <- <-. split; [exact HS|]. intros x X. destruct (not_deduced _ _ DD) as [M _].
       destruct (crecv c) as [o|] eqn:RC.
       - exfalso. unfold exec_native in X. rewrite M in X. destruct (fnative (cfun c)); discriminate.
       - assert (EL : List.length (cargs c) = List.length (fparams (cfun c))).
         { unfold exec_native, start_param in X. rewrite M in X. destruct (fnative (cfun c)); cbn [negb] in X; [|discriminate].
           destruct (max_args <? _)%nat; [discriminate|].
           destruct (_ =? _)%nat eqn:L in X; cbn [negb] in X; [|discriminate]. apply Nat.eqb_eq in L. lia. }
         apply exec_native_ok in X; [|exact EL]. destruct X as (-> & X2 & X3 & X4).
         repeat split; auto; try apply X3; try congruence. }
  destruct (deduce w s c) as [[f|] s1] eqn:D; injection H as <- <-.
  - apply deduce_cases in D; destruct D as [-> D]. cbn [remembers].
    assert (PF : P f) by (destruct D as [[-> _]|D]; [exact HS|auto]).
    assert (EL : List.length (cargs c) = List.length (fparams f)).
    { destruct D as [[_ R]|D]; [eapply forall2b_length; exact R|].
      apply fresh_in in D; destruct D as [_ D]. now apply candidate_name in D. }
    split; [exact PF|]. intros x X. apply exec_native_ok in X; [|exact EL]. destruct X as (-> & X2 & X3 & X4).
    repeat split; auto; try apply X3; try congruence.
  - apply deduce_fail in D; destruct D as [-> _]. split; [exact HS|discriminate].
Qed.

Lemma calls_at_inv w (P : nfun -> Prop) : forall cs s rs s',
  (forall c f, In c cs -> fresh w c = Some f -> P f) ->
  (forall c, In c cs -> deduced w (cfun c) = false -> crecv c = None -> P (cfun c)) -> remembers P s -> calls_at w s cs = (rs, s') ->
  remembers P s' /\
  Forall2 (fun c r => forall x, r = Ok x -> P (rfun x) /\ List.length (fparams (rfun x)) = List.length (cargs c)
                                          /\ rthis x = crecv c /\ (fmember (rfun x) = true <-> crecv c <> None)
                                          /\ pass_args w (cargs c) (fparams (rfun x)) = Ok (rargs x)) cs rs.
Proof.
  induction cs as [|c cs IH]; intros s rs s' HF HN HS H; cbn [calls_at] in H.
  - injection H as <- <-. split; [exact HS|constructor].
  - destruct (call_at w s c) as [r s1] eqn:E1. destruct (calls_at w s1 cs) as [rs2 s2] eqn:E2.
    injection H as <- <-.
    destruct (call_at_inv w P s c r s1) as [A B]; auto. { intros f Hf; apply (HF c); [now left|exact Hf]. } { apply HN; now left. }
    destruct (IH s1 rs2 s2) as [C D]; auto. { intros c0 f H0; apply HF; now right. } { intros c0 H0; apply HN; now right. }
Qed.

(** ** Registering *)
Lemma same_signature_iff f g : same_signature f g = true <->
  fname f = fname g /\ fmember f = fmember g /\ fparams f = fparams g.
Proof.
  unfold same_signature. rewrite !andb_true_iff, String.eqb_eq, Bool.eqb_true_iff.
  rewrite (forall2b_iff Z.eqb eq Z.eqb_eq).
  assert (E : forall l m : list Z, Forall2 eq l m <-> l = m).
  { induction l as [|a l IH]; intros [|b m]; split; intro H; try (now inversion H); try constructor.
    - inversion H; subst; f_equal; now apply IH.
    - now injection H.
    - injection H as _ H; now apply IH. }
  rewrite E. tauto.
Qed.

(** ** Same types, same choice *)
Lemma find_accepts_same w v v' p : same_type v v' -> find_accepts w v p = find_accepts w v' p.
Proof.
  unfold find_accepts. destruct (p =? T_STACK_ELEMENT); [reflexivity|].
  destruct v, v'; cbn [same_type]; intro H; try contradiction; try reflexivity. now rewrite H.
Qed.

Lemma forall2b_same w : forall args args' ps, Forall2 same_type args args' ->
  forall2b (find_accepts w) args ps = forall2b (find_accepts w) args' ps.
Proof.
  intros args args' ps H; revert ps; induction H as [|v v' a a' Hv H IH]; intros [|p ps]; cbn [forall2b]; try reflexivity.
  rewrite (find_accepts_same w v v' p Hv), IH. reflexivity.
Qed.

Lemma find_native_same w fs name args args' : Forall2 same_type args args' ->
  find_native w fs name args = find_native w fs name args'.
Proof.
  intro H; unfold find_native. generalize (rev fs) as l; induction l as [|f l IH]; [reflexivity|].
  cbn [find]. unfold candidate at 1 3. rewrite (forall2b_same w _ _ _ H). fold (candidate w name args' f).
  now rewrite IH.
Qed.

Lemma script_not_typed w o p : p <> otype o -> p <> T_CLASS_OBJECT -> ~ Typed w p (QScript o).
Proof. intros A B H; inversion H; subst; congruence. Qed.

Lemma fun_not_typed w f p : p <> T_SCRIPT_FUNCTION -> ~ Typed w p (QFun f).
Proof. intros A H; inversion H; subst; congruence. Qed.

Lemma forall2b_map_repeat {A B C} (f : B -> C -> bool) (g : A -> B) c l n :
  (forall a, f (g a) c = true) -> n = List.length l -> forall2b f (map g l) (repeat c n) = true.
Proof.
  intros H ->; induction l as [|a l IH]; [reflexivity|]. cbn [map repeat List.length forall2b]. now rewrite H, IH.
Qed.

Lemma find_last_app w l f name args : candidate w name args f = true -> find_native w (l ++ [f]) name args = Some f.
Proof. intro H; unfold find_native. rewrite rev_unit; cbn [find]. now rewrite H. Qed.
