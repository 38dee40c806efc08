(** Properties C44-C47: argument binding, results of calls, counts in an instruction, nesting. *)
From Coq Require Import List ZArith Bool Lia Arith.
From Verif Require Import Base StringModel CallModel CallSpec.
Import ListNotations.
Open Scope Z_scope.

(** ** C44 *)
Definition final (e : elem) : elem := match e with EStr true s => EStr false s | _ => e end.
Lemma reads_final : forall mem e v, reads mem e v ->
  (forall l, e <> EPtr l /\ e <> ERef l /\ e <> ESlot l) -> final e = v.
Proof.
  intros mem e v H N. inversion H; subst.
  - match goal with K : plain _ |- _ => inversion K; subst end; reflexivity.
  - reflexivity.
  - exfalso. apply (proj2 (proj2 (N o))). reflexivity.
  - exfalso. apply (proj1 (N l)). reflexivity.
  - exfalso. apply (proj1 (proj2 (N l))). reflexivity.
Qed.
Definition unslot (e : elem) : elem := match e with ESlot o => EObj o | _ => e end.
Definition unref (mem : nat -> elem) (e : elem) : elem := match e with ERef l => mem l | _ => e end.
Lemma reads_rest : forall mem e v, reads mem e v -> (forall l, e <> EPtr l) ->
  final (unref mem (unslot e)) = v.
Proof.
  intros mem e v H N.
  destruct e; cbn [unslot unref]; try (apply (reads_final mem); [exact H | intros l0; repeat split; discriminate]).
  - exfalso. eapply N. reflexivity.
  - inversion H; subst; [match goal with K : plain _ |- _ => inversion K end | reflexivity].
  - inversion H; subst; [match goal with K : plain _ |- _ => inversion K end |].
    apply (reads_final mem); assumption.
Qed.
Lemma conv_value : forall mem p a v, p_ref p = false -> reads mem a v -> conv mem p a = Some v.
Proof.
  intros mem p a v Hp H. unfold conv. rewrite Hp. cbv zeta. f_equal.
  change (final (unref mem (unslot match a with EPtr l => mem l | _ => a end)) = v).
  destruct a; try (apply reads_rest; [exact H | discriminate]).
  inversion H; subst; [match goal with K : plain _ |- _ => inversion K end |].
  apply reads_rest; assumption.
Qed.
Lemma conv_ref : forall mem p a l, p_ref p = true -> names a l -> conv mem p a = Some (ERef l).
Proof. intros mem p a l Hp H. unfold conv. rewrite Hp. inversion H; reflexivity. Qed.

Lemma gather_ok : forall mem p args vs, gather mem p args = Ok vs ->
  forall i a, nth_error args i = Some a -> exists v, conv mem p a = Some v /\ nth_error vs i = Some v.
Proof.
  intros mem p. induction args as [|a0 args IH]; intros vs E i a Hi.
  - destruct i; discriminate.
  - cbn in E. destruct (conv mem p a0) as [v0|] eqn:E0; [|discriminate].
    destruct (gather mem p args) as [vs0| | |] eqn:E1; try discriminate. cbn in E. inversion E; subst.
    destruct i as [|i].
    + cbn in Hi. inversion Hi; subst. exists v0. auto.
    + cbn in Hi. destruct (IH vs0 eq_refl i a Hi) as [v [A B]]. exists v. auto.
Qed.
Lemma gather_len : forall mem p args vs, gather mem p args = Ok vs -> length vs = length args.
Proof.
  intros mem p. induction args as [|a0 args IH]; intros vs E; cbn in E.
  - inversion E; reflexivity.
  - destruct (conv mem p a0); [|discriminate]. destruct (gather mem p args) eqn:E1; try discriminate.
    cbn in E. inversion E; subst. cbn [length]. rewrite (IH _ eq_refl). reflexivity.
Qed.

Lemma pass_len : forall mem args i eff ps seg, pass mem i eff ps args = Ok seg -> length seg = length args.
Proof.
  intros mem. induction args as [|a args IH]; intros i eff ps seg E; cbn in E.
  - inversion E; reflexivity.
  - destruct ps as [|p ps]; [discriminate|]. destruct (conv mem p a); [|discriminate].
    destruct (p_rest p).
    + destruct (gather mem p args) eqn:G; try discriminate. cbn in E. inversion E; subst. cbn [length].
      rewrite (gather_len _ _ _ _ G). reflexivity.
    + destruct (eff <=? S i)%nat.
      * inversion E; reflexivity.
      * destruct (pass mem (S i) eff ps args) eqn:G; try discriminate. cbn in E. inversion E; subst.
        cbn [length]. rewrite (IH _ _ _ _ G). reflexivity.
Qed.

(** Argument [j] of the remaining ones, for parameter [j] of the remaining ones. *)
Lemma pass_nth : forall mem args i eff ps seg, pass mem i eff ps args = Ok seg ->
  (length args < length ps -> eff = i + length args)%nat ->
  (length ps <= length args -> eff = i + length ps)%nat ->
  rest_last ps ->
  forall j p a, nth_error ps j = Some p -> nth_error args j = Some a ->
  if p_rest p
  then exists vs, nth_error seg j = Some (EArr vs) /\ length vs = (length args - j)%nat /\
       forall k b, nth_error args (j + k) = Some b -> exists v, conv mem p b = Some v /\ nth_error vs k = Some v
  else exists v, conv mem p a = Some v /\ nth_error seg j = Some v.
Proof.
  intros mem. induction args as [|a0 args IH]; intros i eff ps seg E L1 L2 RL j p a Hp Ha.
  - destruct j; discriminate.
  - cbn in E. destruct ps as [|p0 ps]; [discriminate|].
    destruct (conv mem p0 a0) as [v0|] eqn:E0; [|discriminate].
    destruct (p_rest p0) eqn:R0.
    + assert (ps = []) as ->.
      { pose proof (RL 0%nat p0 eq_refl R0) as X. cbn in X. destruct ps; [reflexivity | cbn in X; lia]. }
      destruct (gather mem p0 args) as [vs| | |] eqn:G; try discriminate. cbn in E. inversion E; subst.
      destruct j as [|j]; [|destruct j; discriminate].
      cbn in Hp. inversion Hp; subst p0. rewrite R0.
      exists (v0 :: vs). cbn [length nth_error]. split; [reflexivity|]. split.
      { rewrite (gather_len _ _ _ _ G). lia. }
      intros k b Hk. destruct k as [|k].
      * cbn in Hk. inversion Hk; subst. exists v0; auto.
      * cbn in Hk. destruct (gather_ok _ _ _ _ G k b Hk) as [v [A B]]. exists v; auto.
    + destruct (eff <=? S i)%nat eqn:Ef.
      * apply Nat.leb_le in Ef. inversion E; subst seg.
        assert (j = 0)%nat as ->.
        { destruct j as [|j]; [reflexivity|]. exfalso.
          assert (S j < length (p0 :: ps))%nat by (apply nth_error_Some; rewrite Hp; discriminate).
          assert (S j < length (a0 :: args))%nat by (apply nth_error_Some; rewrite Ha; discriminate).
          cbn [length] in *. lia. }
        cbn in Hp, Ha. inversion Hp; inversion Ha; subst. rewrite R0. exists v0; auto.
      * apply Nat.leb_gt in Ef. destruct (pass mem (S i) eff ps args) as [r| | |] eqn:G; try discriminate.
        cbn in E. inversion E; subst seg.
        destruct j as [|j].
        { cbn in Hp, Ha. inversion Hp; inversion Ha; subst. rewrite R0. exists v0; auto. }
        cbn in Hp, Ha. cbn [length] in *.
        assert (H := IH (S i) eff ps r G).
        cbn [nth_error]. apply (H ltac:(lia) ltac:(lia)).
        { intros k q Hk Hq. pose proof (RL (S k) q Hk Hq). cbn in *. lia. }
        { exact Hp. } { exact Ha. }
Qed.

Lemma defaults_nth : forall ps ds, defaults ps = Ok ds ->
  forall i p, nth_error ps i = Some p -> exists v, default_is p v /\ nth_error ds i = Some v.
Proof.
  induction ps as [|p0 ps IH]; intros ds E i p Hi.
  - destruct i; discriminate.
  - cbn in E. destruct (p_def p0) as [e|[e|]] eqn:D; try discriminate;
    destruct (defaults ps) as [r| | |] eqn:G; try discriminate; cbn in E; inversion E; subst;
    (destruct i as [|i]; [cbn in Hi; inversion Hi; subst; exists e; split; [unfold default_is; auto | reflexivity]
                         | cbn in Hi; apply (IH r eq_refl i p Hi)]).
Qed.
Lemma defaults_len : forall ps ds, defaults ps = Ok ds -> length ds = length ps.
Proof.
  induction ps as [|p0 ps IH]; intros ds E; cbn in E.
  - inversion E; reflexivity.
  - destruct (p_def p0) as [e|[e|]]; try discriminate;
    destruct (defaults ps) as [r| | |] eqn:G; try discriminate; cbn in E; inversion E; subst;
    cbn [length]; rewrite (IH _ eq_refl); reflexivity.
Qed.

Lemma nth_error_skipn' : forall (A : Type) n (l : list A) i, nth_error (skipn n l) i = nth_error l (n + i).
Proof. induction n as [|n IH]; intros l i; [reflexivity|]. destruct l; [destruct i; reflexivity|]. apply IH. Qed.
Lemma nth_error_firstn' : forall (A : Type) n (l : list A) i, (i < n)%nat -> nth_error (firstn n l) i = nth_error l i.
Proof.
  induction n as [|n IH]; intros l i H; [lia|]. destruct l; [destruct i; reflexivity|].
  destruct i; [reflexivity|]. cbn. apply IH. lia.
Qed.

(** The local variables after binding, position by position. *)
Lemma bind_parts : forall mem params nl args L, bind_args mem params nl args = Ok L ->
  exists seg ds, defaults (skipn (length args) params) = Ok ds /\ length seg = length args /\
    L = firstn (length params) (seg ++ ds) ++ repeat EUndef (nl - length params) /\
    (args <> [] -> params <> [] ->
     pass mem 0 (if (length args <? length params)%nat then length args else length params) params args = Ok seg).
Proof.
  intros mem params nl args L E. unfold bind_args in E.
  destruct ((0 <? length args)%nat && (0 <? length params)%nat) eqn:B.
  - destruct (pass mem 0 (if (length args <? length params)%nat then length args else length params) params args) as [seg| | |] eqn:P; try discriminate.
    cbn [rbind] in E. destruct (defaults (skipn (length args) params)) as [ds| | |] eqn:Dd; try discriminate.
    cbn [rbind] in E. inversion E; subst. exists seg, ds. split; [reflexivity|]. split; [eapply pass_len; eauto|].
    split; [reflexivity|]. auto.
  - cbn [rbind] in E. destruct (defaults (skipn (length args) params)) as [ds| | |] eqn:Dd; try discriminate.
    cbn [rbind] in E. inversion E; subst. exists args, ds. split; [reflexivity|]. split; [reflexivity|]. split; [reflexivity|].
    intros A P. exfalso. destruct args; [congruence|]. destruct params; [congruence|]. discriminate.
Qed.

Lemma bind_in : forall mem params nl args L, bind_args mem params nl args = Ok L -> rest_last params ->
  forall i p a, nth_error params i = Some p -> nth_error args i = Some a ->
  if p_rest p
  then exists vs, nth_error L i = Some (EArr vs) /\ length vs = (length args - i)%nat /\
       forall k b, nth_error args (i + k) = Some b -> exists v, conv mem p b = Some v /\ nth_error vs k = Some v
  else exists v, conv mem p a = Some v /\ nth_error L i = Some v.
Proof.
  intros mem params nl args L E RL i p a Hp Ha.
  destruct (bind_parts _ _ _ _ _ E) as [seg [ds [Hd [Hl [-> Hpass]]]]].
  assert (Li : (i < length params)%nat) by (apply nth_error_Some; rewrite Hp; discriminate).
  assert (Ai : (i < length args)%nat) by (apply nth_error_Some; rewrite Ha; discriminate).
  assert (P := Hpass ltac:(intros ->; cbn in Ai; lia) ltac:(intros ->; cbn in Li; lia)).
  assert (Hn : nth_error (firstn (length params) (seg ++ ds) ++ repeat EUndef (nl - length params)) i = nth_error seg i).
  { rewrite nth_error_app1 by (rewrite firstn_length, app_length; lia).
    rewrite nth_error_firstn' by exact Li. apply nth_error_app1. lia. }
  rewrite Hn.
  eapply pass_nth; eauto.
  - intros H. destruct (length args <? length params)%nat eqn:B; [reflexivity|]. apply Nat.ltb_ge in B. lia.
  - intros H. destruct (length args <? length params)%nat eqn:B; [|reflexivity]. apply Nat.ltb_lt in B. lia.
Qed.

(** A by-value parameter holds the value of its argument, a by-reference parameter refers to the
    variable its argument names; extra arguments do not matter. *)
Theorem C44_argument_bound : forall mem params nl args L,
  bind_args mem params nl args = Ok L -> rest_last params ->
  forall i p a, nth_error params i = Some p -> nth_error args i = Some a -> p_rest p = false ->
  (p_ref p = false -> forall v, reads mem a v -> nth_error L i = Some v) /\
  (p_ref p = true -> exists l, names a l /\ nth_error L i = Some (ERef l)).
Proof.
  intros mem params nl args L E RL i p a Hp Ha R.
  pose proof (bind_in _ _ _ _ _ E RL i p a Hp Ha) as H. rewrite R in H. destruct H as [v [Hc Hn]].
  split.
  - intros Hr w Hw. rewrite (conv_value _ _ _ _ Hr Hw) in Hc. congruence.
  - intros Hr. unfold conv in Hc. rewrite Hr in Hc.
    destruct a; try discriminate; inversion Hc; subst; eexists; (split; [constructor | exact Hn]).
Qed.
Print Assumptions C44_argument_bound.

(** Without argument a parameter holds its default value. *)
Theorem C44_missing_gets_default : forall mem params nl args L,
  bind_args mem params nl args = Ok L ->
  forall i p, nth_error params i = Some p -> (length args <= i)%nat ->
  exists v, default_is p v /\ nth_error L i = Some v.
Proof.
  intros mem params nl args L E i p Hp Hi.
  destruct (bind_parts _ _ _ _ _ E) as [seg [ds [Hd [Hl [-> _]]]]].
  assert (Li : (i < length params)%nat) by (apply nth_error_Some; rewrite Hp; discriminate).
  destruct (defaults_nth _ _ Hd (i - length args) p) as [v [Dv Nv]].
  { rewrite nth_error_skipn'. rewrite <- Hp. f_equal. lia. }
  exists v. split; [exact Dv|].
  pose proof (defaults_len _ _ Hd) as Ld. rewrite skipn_length in Ld.
  rewrite nth_error_app1 by (rewrite firstn_length, app_length; lia).
  rewrite nth_error_firstn' by exact Li. rewrite nth_error_app2 by lia. rewrite Hl. exact Nv.
Qed.
Print Assumptions C44_missing_gets_default.

(** A rest parameter that at least one argument reaches holds an array of exactly the remaining
    arguments' values, in order. *)
Theorem C44_rest_partial : forall mem params nl args L,
  bind_args mem params nl args = Ok L -> rest_last params ->
  forall i p, nth_error params i = Some p -> p_rest p = true -> p_ref p = false -> (i < length args)%nat ->
  exists vs, nth_error L i = Some (EArr vs) /\ length vs = (length args - i)%nat /\
    forall k b v, nth_error args (i + k) = Some b -> reads mem b v -> nth_error vs k = Some v.
Proof.
  intros mem params nl args L E RL i p Hp R Hr Hi.
  destruct (nth_error args i) as [a|] eqn:Ha; [|apply nth_error_None in Ha; lia].
  pose proof (bind_in _ _ _ _ _ E RL i p a Hp Ha) as H. rewrite R in H. destruct H as [vs [Hn [Hl Hk]]].
  exists vs. split; [exact Hn|]. split; [exact Hl|].
  intros k b v Hb Hv. destruct (Hk k b Hb) as [w [Hc Hw]]. rewrite (conv_value _ _ _ _ Hr Hv) in Hc. congruence.
Qed.
Print Assumptions C44_rest_partial.

(** Local variables that are not parameters start undefined. *)
Theorem C44_other_locals_undefined : forall mem params nl args L,
  bind_args mem params nl args = Ok L ->
  length L = Nat.max nl (length params) /\
  forall i, (length params <= i)%nat -> (i < nl)%nat -> nth_error L i = Some EUndef.
Proof.
  intros mem params nl args L E.
  destruct (bind_parts _ _ _ _ _ E) as [seg [ds [Hd [Hl [-> _]]]]].
  pose proof (defaults_len _ _ Hd) as Ld. rewrite skipn_length in Ld.
  assert (Lf : length (firstn (length params) (seg ++ ds)) = length params) by (rewrite firstn_length, app_length; lia).
  split.
  - rewrite app_length, Lf, repeat_length. lia.
  - intros i A B. rewrite nth_error_app2 by lia. rewrite Lf.
    apply nth_error_repeat. lia.
Qed.
Print Assumptions C44_other_locals_undefined.

Lemma gather_total : forall mem p args, gather mem p args <> UB /\ gather mem p args <> Loop.
Proof.
  intros mem p. induction args as [|a args [IH1 IH2]]; cbn; [split; discriminate|].
  destruct (conv mem p a); [|split; discriminate].
  destruct (gather mem p args); cbn; split; congruence.
Qed.
Lemma gather_thr : forall mem p args, gather mem p args = Thr ->
  exists a, In a args /\ p_ref p = true /\ forall l, ~ names a l.
Proof.
  intros mem p. induction args as [|a args IH]; intros E; cbn in E; [discriminate|].
  destruct (conv mem p a) eqn:C.
  - destruct (gather mem p args) eqn:G; try discriminate. destruct (IH eq_refl) as [b [I K]]. exists b. split; [right; exact I | exact K].
  - exists a. split; [left; reflexivity|]. unfold conv in C. destruct (p_ref p); [|discriminate]. split; [reflexivity|].
    intros l N. inversion N; subst; discriminate.
Qed.
Lemma pass_total : forall mem args i eff ps, (length args <= length ps \/ eff <= i + length ps)%nat ->
  (ps <> [] \/ args = []) -> pass mem i eff ps args <> UB /\ pass mem i eff ps args <> Loop.
Proof.
  intros mem. induction args as [|a args IH]; intros i eff ps H Hne; cbn; [split; discriminate|].
  destruct ps as [|p ps]; [destruct Hne; congruence|].
  destruct (conv mem p a); [|split; discriminate].
  destruct (p_rest p).
  - pose proof (gather_total mem p args) as [A B]. destruct (gather mem p args); cbn; split; congruence.
  - destruct (eff <=? S i)%nat eqn:Ef; [split; discriminate|]. apply Nat.leb_gt in Ef.
    cbn [length] in H.
    destruct (IH (S i) eff ps) as [A B]; [lia | |].
    { destruct ps; [|left; discriminate]. right. cbn [length] in H. destruct args; [reflexivity|]. cbn [length] in H. lia. }
    destruct (pass mem (S i) eff ps args); cbn; split; congruence.
Qed.
Lemma defaults_total : forall ps, defaults ps <> UB /\ defaults ps <> Loop.
Proof.
  induction ps as [|p ps [A B]]; cbn; [split; discriminate|].
  destruct (p_def p) as [e|[e|]]; [| |split; discriminate]; destruct (defaults ps); cbn; split; congruence.
Qed.
Lemma defaults_thr : forall ps, defaults ps = Thr -> exists p, In p ps /\ p_def p = DCall None.
Proof.
  induction ps as [|p ps IH]; cbn; intros E; [discriminate|].
  destruct (p_def p) as [e|[e|]] eqn:D.
  - destruct (defaults ps); try discriminate. destruct (IH eq_refl) as [q [I K]]. exists q; auto.
  - destruct (defaults ps); try discriminate. destruct (IH eq_refl) as [q [I K]]. exists q; auto.
  - exists p; auto.
Qed.
Lemma pass_thr : forall mem args i eff ps, pass mem i eff ps args = Thr ->
  exists p a, In p ps /\ In a args /\ p_ref p = true /\ forall l, ~ names a l.
Proof.
  intros mem. induction args as [|a args IH]; intros i eff ps E; cbn in E; [discriminate|].
  destruct ps as [|p ps]; [discriminate|].
  destruct (conv mem p a) eqn:C.
  - destruct (p_rest p).
    + destruct (gather mem p args) eqn:G; try discriminate. destruct (gather_thr _ _ _ G) as [b [I K]].
      exists p, b. split; [left; reflexivity|]. split; [right; exact I | exact K].
    + destruct (eff <=? S i)%nat; [discriminate|].
      destruct (pass mem (S i) eff ps args) eqn:G; try discriminate.
      destruct (IH _ _ _ G) as [q [b [I [J K]]]]. exists q, b. split; [right; exact I|]. split; [right; exact J | exact K].
  - exists p, a. split; [left; reflexivity|]. split; [left; reflexivity|]. unfold conv in C. destruct (p_ref p); [|discriminate]. split; [reflexivity|].
    intros l N. inversion N; subst; discriminate.
Qed.

(** Binding always ends, and fails only because an argument given to a by-reference parameter is
    not a variable, or the function computing a default fails. *)
Theorem C44_binding_total : forall mem params nl args,
  (exists L, bind_args mem params nl args = Ok L) \/
  bind_args mem params nl args = Thr /\
  ((exists p a, In p params /\ In a args /\ p_ref p = true /\ forall l, ~ names a l) \/
   (exists p, In p params /\ p_def p = DCall None)).
Proof.
  intros mem params nl args. unfold bind_args.
  assert (Hd : forall seg, (exists L, (do ds <- defaults (skipn (length args) params);
      Ok (firstn (length params) (seg ++ ds) ++ repeat EUndef (nl - length params)%nat)) = Ok L) \/
      (do ds <- defaults (skipn (length args) params);
      Ok (firstn (length params) (seg ++ ds) ++ repeat EUndef (nl - length params)%nat)) = Thr /\
      (exists p, In p params /\ p_def p = DCall None)).
  { intros seg. destruct (defaults_total (skipn (length args) params)) as [A B].
    destruct (defaults (skipn (length args) params)) as [ds| | |] eqn:D; try congruence.
    - left. cbn. eexists; reflexivity.
    - right. split; [reflexivity|]. destruct (defaults_thr _ D) as [p [I K]]. exists p. split; [|exact K].
      rewrite <- (firstn_skipn (length args) params). apply in_or_app. right; exact I. }
  destruct ((0 <? length args)%nat && (0 <? length params)%nat) eqn:B.
  - apply andb_true_iff in B. destruct B as [B1 B2]. apply Nat.ltb_lt in B1, B2.
    destruct (pass_total mem args 0 (if (length args <? length params)%nat then length args else length params) params) as [A1 A2].
    { destruct (length args <? length params)%nat eqn:B; [apply Nat.ltb_lt in B; lia | apply Nat.ltb_ge in B; lia]. }
    { left. destruct params; [cbn in B2; lia | discriminate]. }
    destruct (pass mem 0 _ params args) as [seg| | |] eqn:P; try congruence.
    + cbn [rbind]. destruct (Hd seg) as [X|[X Y]]; [left; exact X | right; split; [exact X | right; exact Y]].
    + right. split; [reflexivity|]. left. eapply pass_thr; eauto.
  - cbn [rbind]. destruct (Hd args) as [X|[X Y]]; [left; exact X | right; split; [exact X | right; exact Y]].
Qed.
Print Assumptions C44_binding_total.

(** A rest parameter that no argument reaches is not an empty array: it is undefined. *)
Theorem C44_empty_rest_refuted : forall mem params nl args L,
  bind_args mem params nl args = Ok L ->
  forall i p, nth_error params i = Some p -> p_rest p = true -> p_def p = DVal EUndef ->
  (length args <= i)%nat -> nth_error L i = Some EUndef /\ nth_error L i <> Some (EArr []).
Proof.
  intros mem params nl args L E i p Hp R D Hi.
  destruct (C44_missing_gets_default _ _ _ _ _ E i p Hp Hi) as [v [Hv Hn]].
  assert (v = EUndef) as -> by (destruct Hv; congruence).
  split; [exact Hn | rewrite Hn; discriminate].
Qed.
Print Assumptions C44_empty_rest_refuted.

(** A by-reference parameter that refers to an array element holding an object, passed on by
    value, hands over the array's slot, not the object. *)
Theorem C44_slot_through_reference_refuted : forall mem params nl args L,
  bind_args mem params nl args = Ok L -> rest_last params ->
  forall i p l o, nth_error params i = Some p -> p_rest p = false -> p_ref p = false ->
  nth_error args i = Some (ERef l) -> mem l = ESlot o ->
  nth_error L i = Some (ESlot o).
Proof.
  intros mem params nl args L E RL i p l o Hp R Hr Ha Hm.
  pose proof (bind_in _ _ _ _ _ E RL i p _ Hp Ha) as H. rewrite R in H. destruct H as [v [Hc Hn]].
  unfold conv in Hc. rewrite Hr in Hc. cbv zeta in Hc. rewrite Hm in Hc. congruence.
Qed.
Print Assumptions C44_slot_through_reference_refuted.

Definition pv (d : elem) : param := {| p_ref := false; p_rest := false; p_def := DVal d |}.
Definition pr : param := {| p_ref := true; p_rest := false; p_def := DVal EUndef |}.
Definition prest : param := {| p_ref := false; p_rest := true; p_def := DVal EUndef |}.
Definition mem0 (l : nat) : elem := match l with O => ENum 7 | S O => EStr true [65] | _ => ERef 0 end.
Example C44_case :
  bind_args mem0 [pv EUndef; pr; prest] 5 [EPtr 0; EPtr 1; EPtr 1; ENum 4; EPtr 2]
    = Ok [ENum 7; ERef 1; EArr [EStr false [65]; ENum 4; ENum 7]; EUndef; EUndef] /\
  bind_args mem0 [pv EUndef; pv (ENum 9)] 2 [ENum 1] = Ok [ENum 1; ENum 9] /\
  bind_args mem0 [pv EUndef] 2 [ENum 1; ENum 2; ENum 3] = Ok [ENum 1; EUndef] /\
  bind_args mem0 [pr] 1 [ENum 1] = Thr /\
  bind_args mem0 [prest] 1 [] = Ok [EUndef] /\
  rest_last [pv EUndef; pr; prest] /\ reads mem0 (EPtr 2) (ENum 7).
Proof.
  repeat split.
  - intros i p. do 4 (destruct i as [|i]; [cbn; intros H R; inversion H; subst; try discriminate; reflexivity|]).
    destruct i; discriminate.
  - apply rd_var; [|discriminate]. cbn. apply rd_ref; [|cbn; repeat split; discriminate]. cbn. constructor. constructor.
Qed.

(** ** C45 *)
Lemma upd_app_r : forall (C : Type) (a b : list C) i c, upd (a ++ b) (length a + i) c = a ++ upd b i c.
Proof. induction a as [|x a IH]; intros b i c; [reflexivity|]. cbn. rewrite IH. reflexivity. Qed.
Lemma upd_mid : forall (C : Type) (a b : list C) x c, upd (a ++ x :: b) (length a) c = a ++ c :: b.
Proof. intros C a b x c. replace (length a) with (length a + 0)%nat by lia. rewrite upd_app_r. reflexivity. Qed.
Lemma rd_mid : forall (C : Type) (a b : list C) x i, i = Z.of_nat (length a) -> rd (a ++ x :: b) i = Some x.
Proof.
  intros C a b x i ->. unfold rd. destruct (Z.of_nat (length a) <? 0) eqn:E; [apply Z.ltb_lt in E; lia|].
  rewrite Nat2Z.id, nth_error_app2 by lia. rewrite Nat.sub_diag. reflexivity.
Qed.
Lemma wr_mid : forall (C : Type) (a b : list C) x c i, i = Z.of_nat (length a) ->
  wr (a ++ x :: b) i c = Some (a ++ c :: b).
Proof.
  intros C a b x c i ->. unfold wr. rewrite app_length. cbn [length].
  destruct (Z.of_nat (length a) <? 0) eqn:E; [apply Z.ltb_lt in E; lia|].
  destruct (Z.of_nat (length a + S (length b)) <=? Z.of_nat (length a)) eqn:F; [apply Z.leb_le in F; lia|].
  cbn. rewrite Nat2Z.id, upd_mid. reflexivity.
Qed.

(** One round: the outer parts [a], [b] are done, the middle is still to be reversed. *)
Lemma swaps_spec : forall k m a b, length a = length b -> (length m = 2 * k \/ length m = 2 * k + 1)%nat ->
  swaps k (Z.of_nat (length a)) (Z.of_nat (length a + length m + length b)) (a ++ m ++ b)
  = Some (a ++ rev m ++ b).
Proof.
  induction k as [|k IH]; intros m a b Hab Hm.
  - cbn [swaps]. f_equal. f_equal. f_equal. destruct m as [|x [|y m]]; [reflexivity | reflexivity | cbn in Hm; lia].
  - destruct m as [|x m]; [cbn in Hm; lia|].
    destruct (exists_last (l := m)) as [m1 [y Em]]; [destruct m; [cbn in Hm; lia | discriminate]|].
    subst m. assert (Lm : (length m1 = 2 * k \/ length m1 = 2 * k + 1)%nat) by (cbn [length] in Hm; rewrite app_length in Hm; cbn [length] in Hm; lia).
    cbn [swaps].
    assert (N : Z.of_nat (length a + length (x :: m1 ++ [y]) + length b) - Z.of_nat (length a) - 1 = Z.of_nat (length (a ++ x :: m1))).
    { rewrite app_length. cbn [length]. rewrite app_length. cbn [length]. lia. }
    rewrite N.
    assert (Sp : a ++ (x :: m1 ++ [y]) ++ b = (a ++ x :: m1) ++ y :: b).
    { cbn. rewrite <- !app_assoc. reflexivity. }
    rewrite Sp. rewrite (rd_mid _ (a ++ x :: m1) b y _ eq_refl).
    replace ((a ++ x :: m1) ++ y :: b) with (a ++ x :: (m1 ++ y :: b)) at 1 by (rewrite <- app_assoc; reflexivity).
    rewrite (rd_mid _ a (m1 ++ y :: b) x _ eq_refl).
    rewrite (wr_mid _ (a ++ x :: m1) b y x _ eq_refl).
    replace ((a ++ x :: m1) ++ x :: b) with (a ++ x :: (m1 ++ x :: b)) by (rewrite <- app_assoc; reflexivity).
    rewrite (wr_mid _ a (m1 ++ x :: b) x y _ eq_refl).
    specialize (IH m1 (a ++ [y]) (x :: b)).
    replace (Z.of_nat (length (a ++ [y]))) with (Z.of_nat (length a) + 1) in IH by (rewrite app_length; cbn [length]; lia).
    replace (Z.of_nat (length (a ++ [y]) + length m1 + length (x :: b))) with (Z.of_nat (length a + length (x :: m1 ++ [y]) + length b)) in IH
      by (rewrite app_length; cbn [length]; rewrite app_length; cbn [length]; lia).
    replace ((a ++ [y]) ++ m1 ++ x :: b) with (a ++ y :: m1 ++ x :: b) in IH by (rewrite <- app_assoc; reflexivity).
    rewrite IH by (rewrite ?app_length; cbn [length]; lia).
    f_equal. cbn [rev]. rewrite rev_app_distr. cbn [rev app]. rewrite <- !app_assoc. reflexivity.
Qed.
Lemma swaps_rev : forall v, swaps (Z.to_nat (Z.of_nat (length v) / 2)) 0 (Z.of_nat (length v)) v = Some (rev v).
Proof.
  intros v. pose proof (swaps_spec (Z.to_nat (Z.of_nat (length v) / 2)) v [] []) as H.
  cbn [length app] in H. rewrite app_nil_r in H. rewrite Nat.add_0_r, Nat.add_0_l in H. cbn [Z.of_nat] in H.
  rewrite H; [rewrite app_nil_r; reflexivity | reflexivity |].
  Z.div_mod_to_equations. lia.
Qed.

Lemma skipn_repeat_app : forall (A : Type) (x : A) n l, skipn n (repeat x n ++ l) = l.
Proof. induction n as [|n IH]; intros l; [reflexivity | apply IH]. Qed.
Lemma skipn_repeat : forall (A : Type) (x : A) n k, skipn n (repeat x (n + k)) = repeat x k.
Proof. induction n as [|n IH]; intros k; [reflexivity | apply IH]. Qed.

Lemma deliver_ret : forall nl r vs,
  deliver nl r (left nl (RetVals vs)) = Some (firstn r (rev (vs ++ repeat EUndef (r - length vs)))).
Proof.
  intros nl r vs. unfold deliver, left. cbv zeta.
  rewrite app_length, repeat_length.
  replace (Z.of_nat (nl + length vs) - Z.of_nat nl) with (Z.of_nat (length vs)) by lia.
  replace (Z.to_nat (Z.of_nat r - Z.of_nat (length vs))) with (r - length vs)%nat by lia.
  rewrite <- app_assoc, skipn_repeat_app.
  assert (L : Z.max (Z.of_nat (length vs)) (Z.of_nat r) = Z.of_nat (length (vs ++ repeat EUndef (r - length vs)))).
  { rewrite app_length, repeat_length. lia. }
  rewrite L, swaps_rev, rev_length, app_length, repeat_length.
  destruct (length vs + (r - length vs) <? r)%nat eqn:E; [apply Nat.ltb_lt in E; lia | reflexivity].
Qed.
Lemma deliver_end : forall nl r, deliver nl r (left nl EndOfCode) = Some (repeat EUndef r).
Proof.
  intros nl r. unfold deliver, left. cbv zeta. cbn [length app].
  replace (Z.to_nat (Z.of_nat r - (Z.of_nat 0 - Z.of_nat nl))) with (nl + r)%nat by lia.
  rewrite skipn_repeat.
  replace (Z.max (Z.of_nat 0 - Z.of_nat nl) (Z.of_nat r)) with (Z.of_nat (length (repeat EUndef r))) by (rewrite repeat_length; lia).
  rewrite swaps_rev, rev_length, repeat_length.
  destruct (r <? r)%nat eqn:E; [apply Nat.ltb_lt in E; lia|].
  f_equal. rewrite firstn_all2 by (rewrite rev_length, repeat_length; lia).
  clear. induction r as [|r IH]; [reflexivity|].
  cbn [repeat rev]. rewrite IH. clear IH. induction r as [|r IH]; [reflexivity | cbn; rewrite IH; reflexivity].
Qed.

(** Not more results than asked for: the caller finds them, first result on top, padded with
    undefined, above its own values. *)
Theorem C45_results_partial : forall below own k nl r vs, length own = k -> (length vs <= r)%nat ->
  exists res, after_call (below ++ own) k nl r (RetVals vs) = Some (below ++ rev res) /\ length res = r /\
  forall i, (i < r)%nat -> nth_error res i = Some (nth i vs EUndef).
Proof.
  intros below own k nl r vs Hk Hr. unfold after_call. rewrite deliver_ret.
  exists (vs ++ repeat EUndef (r - length vs)).
  assert (L : length (vs ++ repeat EUndef (r - length vs)) = r) by (rewrite app_length, repeat_length; lia).
  split; [|split; [exact L|]].
  - rewrite app_length, Hk. replace (length below + k - k)%nat with (length below) by lia.
    rewrite firstn_app, firstn_all, Nat.sub_diag. cbn [firstn]. rewrite app_nil_r.
    rewrite firstn_all2 by (rewrite rev_length; lia). reflexivity.
  - intros i Hi. destruct (Nat.lt_ge_cases i (length vs)) as [H|H].
    + rewrite nth_error_app1 by exact H. apply nth_error_nth'. exact H.
    + rewrite nth_error_app2 by exact H. rewrite nth_error_repeat by lia. rewrite nth_overflow by exact H. reflexivity.
Qed.
Print Assumptions C45_results_partial.

(** A function that ends without return delivers only undefined. *)
Theorem C45_no_return : forall below own k nl r, length own = k ->
  after_call (below ++ own) k nl r EndOfCode = Some (below ++ repeat EUndef r).
Proof.
  intros below own k nl r Hk. unfold after_call. rewrite deliver_end.
  rewrite app_length, Hk. replace (length below + k - k)%nat with (length below) by lia.
  rewrite firstn_app, firstn_all, Nat.sub_diag. cbn [firstn]. rewrite app_nil_r. reflexivity.
Qed.
Print Assumptions C45_no_return.

(** More results than asked for: the caller gets the last [r] results instead of the first [r]. *)
Theorem C45_too_many_results_refuted : forall below own k nl r vs, length own = k -> (r < length vs)%nat ->
  after_call (below ++ own) k nl r (RetVals vs) = Some (below ++ rev (skipn (length vs - r) vs)).
Proof.
  intros below own k nl r vs Hk Hr. unfold after_call. rewrite deliver_ret.
  rewrite app_length, Hk. replace (length below + k - k)%nat with (length below) by lia.
  rewrite firstn_app, firstn_all, Nat.sub_diag. cbn [firstn]. rewrite app_nil_r.
  replace (r - length vs)%nat with 0%nat by lia. cbn [repeat]. rewrite app_nil_r.
  rewrite firstn_rev. reflexivity.
Qed.
Print Assumptions C45_too_many_results_refuted.

Example C45_case :
  after_call [ENum 50; EObj 1; EObj 2] 2 3 2 (RetVals [ENum 1; ENum 2]) = Some [ENum 50; ENum 2; ENum 1] /\
  after_call [ENum 50] 0 1 3 (RetVals [ENum 1]) = Some [ENum 50; EUndef; EUndef; ENum 1] /\
  after_call [ENum 50] 0 0 1 (RetVals [ENum 1; ENum 2]) = Some [ENum 50; ENum 2] /\
  after_call [ENum 50] 0 2 1 EndOfCode = Some [ENum 50; EUndef].
Proof. repeat split. Qed.

(** ** C46 *)
Lemma land15 : forall x, Z.land x 15 = x mod 16.
Proof. intros x. change 15 with (Z.ones 4). rewrite Z.land_ones by lia. reflexivity. Qed.
Lemma pack : forall a b, 0 <= b < 16 -> Z.lor (Z.shiftl a 4) b = a * 16 + b.
Proof.
  intros a b Hb. rewrite Z.shiftl_mul_pow2 by lia. change (2 ^ 4) with 16.
  rewrite <- Z.lxor_lor.
  - symmetry. apply Z.add_nocarry_lxor. apply Z.bits_inj'. intros n Hn. rewrite Z.land_spec, Z.bits_0.
    change 16 with (2 ^ 4). destruct (Z.lt_ge_cases n 4).
    + rewrite Z.mul_pow2_bits_low by lia. reflexivity.
    + destruct (Z.eq_dec b 0) as [->|]; [rewrite Z.bits_0; apply andb_false_r|].
      rewrite (Z.bits_above_log2 b n); [apply andb_false_r | lia|].
      assert (Z.log2 b < 4) by (apply Z.log2_lt_pow2; lia). lia.
  - apply Z.bits_inj'. intros n Hn. rewrite Z.land_spec, Z.bits_0.
    change 16 with (2 ^ 4). destruct (Z.lt_ge_cases n 4).
    + rewrite Z.mul_pow2_bits_low by lia. reflexivity.
    + destruct (Z.eq_dec b 0) as [->|]; [rewrite Z.bits_0; apply andb_false_r|].
      rewrite (Z.bits_above_log2 b n); [apply andb_false_r | lia|].
      assert (Z.log2 b < 4) by (apply Z.log2_lt_pow2; lia). lia.
Qed.
Lemma land240 : forall x, 0 <= x < 256 -> Z.land x 240 = x / 16 * 16.
Proof.
  intros x Hx. change 240 with (Z.shiftl (Z.ones 4) 4).
  change 16 with (2 ^ 4). rewrite <- (Z.shiftr_div_pow2 x 4) by lia. rewrite <- Z.shiftl_mul_pow2 by lia.
  apply Z.bits_inj'. intros n Hn. rewrite Z.land_spec, !Z.shiftl_spec by lia.
  destruct (Z.lt_ge_cases n 4).
  - rewrite !(Z.testbit_neg_r _ (n - 4)) by lia. apply andb_false_r.
  - rewrite Z.shiftr_spec by lia. replace (n - 4 + 4) with n by lia.
    destruct (Z.lt_ge_cases (n - 4) 4).
    + rewrite Z.ones_spec_low by lia. apply andb_true_r.
    + rewrite Z.ones_spec_high by lia. rewrite andb_false_r. symmetry.
      destruct (Z.eq_dec x 0) as [->|]; [apply Z.bits_0|]. apply Z.bits_above_log2; [lia|].
      assert (Z.log2 x < 8) by (apply Z.log2_lt_pow2; lia). lia.
Qed.
Lemma op1_value : forall r p, op1_of r p = (r mod 16) * 16 + p mod 16.
Proof. intros r p. unfold op1_of. rewrite !land15. apply pack. apply Z.mod_pos_bound. lia. Qed.
Lemma get_ret_value : forall x, 0 <= x < 256 -> get_ret x = x / 16.
Proof.
  intros x Hx. unfold get_ret. rewrite land240 by lia. rewrite Z.shiftr_div_pow2 by lia. change (2 ^ 4) with 16.
  apply Z.div_mul. lia.
Qed.

(** Counts below 16 survive packing, and setting one count keeps the other. *)
Theorem C46_counts_partial : forall r p, 0 <= r < 16 -> 0 <= p < 16 ->
  get_ret (op1_of r p) = r /\ get_param (op1_of r p) = p /\ 0 <= op1_of r p < 256 /\
  forall r' p', 0 <= r' < 16 -> 0 <= p' < 16 ->
    set_ret (op1_of r p) r' = op1_of r' p /\ set_param (op1_of r p) p' = op1_of r p'.
Proof.
  intros r p Hr Hp. rewrite !op1_value. rewrite !Z.mod_small by lia.
  split; [rewrite get_ret_value by lia; Z.div_mod_to_equations; lia|].
  split; [unfold get_param; rewrite land15; Z.div_mod_to_equations; lia|].
  split; [lia|].
  intros r' p' Hr' Hp'. unfold set_ret, set_param. rewrite !op1_value. rewrite land240 by lia. rewrite !land15.
  rewrite (Z.mod_small r), (Z.mod_small p), (Z.mod_small r'), (Z.mod_small p') by lia.
  replace ((r * 16 + p) mod 16) with p by (Z.div_mod_to_equations; lia).
  replace ((r * 16 + p) / 16) with r by (Z.div_mod_to_equations; lia).
  split.
  - rewrite Z.lor_comm. apply pack. lia.
  - rewrite <- (pack r p') by lia. f_equal. rewrite Z.shiftl_mul_pow2 by lia. reflexivity.
Qed.
Print Assumptions C46_counts_partial.

(** Nothing limits the number of arguments of a call when it is compiled
    (compiler_expression_token_symbol.cpp:615, 638): with 16 or more the instruction has a
    smaller count, so the call takes fewer values from the stack than were pushed. *)
Theorem C46_sixteen_arguments_refuted : forall r p, 16 <= p ->
  get_param (op1_of r p) = p mod 16 /\ get_param (op1_of r p) < p.
Proof.
  intros r p Hp. unfold get_param. rewrite op1_value, land15.
  assert (H : ((r mod 16) * 16 + p mod 16) mod 16 = p mod 16).
  { rewrite Z.add_comm, Z.mod_add by lia. apply Z.mod_mod. lia. }
  rewrite H. split; [reflexivity|]. pose proof (Z.mod_pos_bound p 16). lia.
Qed.
Print Assumptions C46_sixteen_arguments_refuted.

(** In a loop, a call with 10 arguments whose results go to 15 variables is taken for a pending
    break, one with 9 arguments for a pending continue: the address of the called function is
    overwritten by a jump distance. No other counts below 16 are confused. *)
Theorem C46_call_taken_for_break_refuted : forall e k i op2 r p, 0 <= r < 16 -> 0 <= p < 16 ->
  relink e k i (op1_of r p, op2)
  = if (r =? 15) && (p =? 10) then (255, e - i - 1)
    else if (r =? 15) && (p =? 9) then (255, k - i)
    else (op1_of r p, op2).
Proof.
  intros e k i op2 r p Hr Hp. unfold relink. cbn [fst]. rewrite !op1_value, !Z.mod_small by lia.
  unfold op1_break, op1_continue, op1_none.
  destruct (Z.eqb_spec r 15); destruct (Z.eqb_spec p 10); destruct (Z.eqb_spec p 9); cbn [andb];
    repeat match goal with |- context [?a =? ?b] => destruct (Z.eqb_spec a b) end; try reflexivity; lia.
Qed.
Print Assumptions C46_call_taken_for_break_refuted.

Example C46_case : get_ret (op1_of 3 12) = 3 /\ get_param (op1_of 3 12) = 12 /\ set_ret (op1_of 1 12) 15 = op1_of 15 12.
Proof. repeat split. Qed.

(** ** C47 *)
Section Act.
Variable size : Z.
Definition leave_frame (c : Z) (e : bool) : res (Z * bool) :=
  if (c <? 1) || (call_max <? c) then UB else Ok (c - 1, e).
Fixpoint calls (start : Z) (err : bool) (c : Z) (b : list (Z * act)) : res (Z * bool) :=
  match b with
  | [] => leave_frame c err
  | (off, a1) :: b' =>
      match activate size c (start + off) a1 with
      | Ok (c1, true) => Ok (c1, true)
      | Ok (c1, false) => calls start err c1 b'
      | Thr => Thr | UB => UB | Loop => Loop
      end
  end.
Lemma activate_eq : forall cur base nl need body err,
  activate size cur base (Act nl need body err) =
  if call_max <=? cur then Ok (cur, true)
  else if size <=? base + nl + need then
    if size <=? base + nl then UB else leave_frame cur true
  else if cur <? 0 then UB else calls (base + nl) err (cur + 1) body.
Proof.
  intros. cbn [activate]. cbv zeta.
  destruct (call_max <=? cur); [reflexivity|].
  destruct (size <=? base + nl + need); [reflexivity|].
  destruct (cur <? 0); [reflexivity|].
  generalize (cur + 1). induction body as [|[off a1] body IH]; intros c; [reflexivity|].
  cbn [calls]. destruct (activate size c (base + nl + off) a1) as [[c1 [|]]| | |]; try reflexivity. apply IH.
Qed.
End Act.

Lemma act_ind' : forall P : act -> Prop,
  (forall nl need body err, (forall off x, In (off, x) body -> P x) -> P (Act nl need body err)) ->
  forall a, P a.
Proof.
  intros P H. fix IH 1. intros [nl need body err]. apply H.
  induction body as [|[off x] body IHb]; intros o y I; [destruct I|].
  pose proof (IH x) as Hx. destruct I as [E|I]; [|exact (IHb o y I)].
  injection E as _ <-. exact Hx.
Qed.

Definition fit_body (size base : Z) := fix go (b : list (Z * act)) : Prop :=
  match b with [] => True | (off, x) :: b' => 0 <= off /\ locals_fit size (base + off) x /\ go b' end.
Definition all_body (size base : Z) := fix go (b : list (Z * act)) : Prop :=
  match b with [] => True | (off, x) :: b' => 0 <= off /\ all_fit size (base + off) x /\ go b' end.
Definition depth_body := fix go (b : list (Z * act)) : Z :=
  match b with [] => 0 | (_, x) :: b' => Z.max (depth x) (go b') end.
Definition ne_body := fix go (b : list (Z * act)) : Prop :=
  match b with [] => True | (_, x) :: b' => no_error x /\ go b' end.

Lemma ltb_t : forall a b, a < b -> (a <? b) = true. Proof. intros. apply Z.ltb_lt. lia. Qed.
Lemma ltb_f : forall a b, b <= a -> (a <? b) = false. Proof. intros. apply Z.ltb_ge. lia. Qed.
Lemma leb_t : forall a b, a <= b -> (a <=? b) = true. Proof. intros. apply Z.leb_le. lia. Qed.
Lemma leb_f : forall a b, b < a -> (a <=? b) = false. Proof. intros. apply Z.leb_gt. lia. Qed.

Lemma leave_ok : forall c e, 1 <= c <= 100 -> leave_frame c e = Ok (c - 1, e).
Proof. intros c e H. unfold leave_frame, call_max. rewrite !ltb_f by lia. reflexivity. Qed.

Lemma activate_safe : forall size a base cur, 1 <= cur <= 100 -> locals_fit size base a ->
  exists c e, activate size cur base a = Ok (c, e) /\ 0 <= c <= 100 /\
    (e = false -> c = cur /\ cur + depth a <= 100).
Proof.
  intros size. apply (act_ind' (fun a => forall base cur, 1 <= cur <= 100 -> locals_fit size base a ->
    exists c e, activate size cur base a = Ok (c, e) /\ 0 <= c <= 100 /\
      (e = false -> c = cur /\ cur + depth a <= 100))).
  intros nl need body err IH base cur Hc Hf.
  rewrite activate_eq. destruct Hf as [Hnl [Hneed [Hs Hb]]]. change (fit_body size (base + nl) body) in Hb.
  unfold call_max. destruct (100 <=? cur) eqn:E1.
  { exists cur, true. split; [reflexivity|]. split; [lia | discriminate]. }
  apply Z.leb_gt in E1. destruct (size <=? base + nl + need) eqn:E2.
  { rewrite leb_f by lia. rewrite leave_ok by lia. exists (cur - 1), true. split; [reflexivity|]. split; [lia | discriminate]. }
  rewrite ltb_f by lia.
  change (depth (Act nl need body err)) with (1 + depth_body body).
  assert (G : forall b, (forall off x, In (off, x) b -> In (off, x) body) -> fit_body size (base + nl) b ->
    exists c e, calls size (base + nl) err (cur + 1) b = Ok (c, e) /\ 0 <= c <= 100 /\
      (e = false -> c = cur /\ cur + 1 + depth_body b <= 100)).
  { induction b as [|[off x] b IHb]; intros Hin Hfb.
    - cbn [calls]. rewrite leave_ok by lia. exists (cur + 1 - 1), err. split; [reflexivity|]. split; [lia|]. intros _. cbn. lia.
    - destruct Hfb as [Ho [Hx Hb']].
      destruct (IH off x (Hin off x (or_introl eq_refl)) (base + nl + off) (cur + 1) ltac:(lia) Hx) as [c [e [Ea [Rc He]]]].
      cbn [calls]. rewrite Ea. destruct e.
      + exists c, true. split; [reflexivity|]. split; [lia | discriminate].
      + destruct (He eq_refl) as [-> Hd].
        destruct (IHb (fun o y I => Hin o y (or_intror I)) Hb') as [c2 [e2 [E3 [R3 H3]]]].
        exists c2, e2. split; [exact E3|]. split; [exact R3|]. intros K. destruct (H3 K). split; [assumption|]. cbn. fold depth_body. lia. }
  destruct (G body (fun o y I => I) Hb) as [c [e [Ea [Rc He]]]].
  exists c, e. split; [exact Ea|]. split; [exact Rc|]. intros K. destruct (He K). split; [assumption | lia].
Qed.

(** Below main, a call never uses a frame outside the call table: the table index stays between 0
    and 100, and a call that ends without error was not nested deeper than 100 calls and leaves
    the index as it was, provided local variables always lie inside the value stack. *)
Theorem C47_nesting_bounded_partial : forall size a base cur, 1 <= cur <= 100 -> locals_fit size base a ->
  exists c e, activate size cur base a = Ok (c, e) /\ 0 <= c <= 100 /\
    (e = false -> c = cur /\ cur + depth a <= 100).
Proof. exact activate_safe. Qed.
Print Assumptions C47_nesting_bounded_partial.

Lemma depth_pos : forall a, 1 <= depth a.
Proof.
  apply act_ind'. intros nl need body err IH. change (depth (Act nl need body err)) with (1 + depth_body body).
  enough (0 <= depth_body body) by lia. clear IH.
  induction body as [|[o x] b IHb]; [cbn; lia|]. cbn. fold depth_body. lia.
Qed.
Lemma activate_exact : forall size a base cur, 0 <= cur <= 100 -> all_fit size base a -> no_error a ->
  (cur + depth a <= 100 -> activate size cur base a = Ok (cur, false)) /\
  (100 < cur + depth a -> exists c, activate size cur base a = Ok (c, true)).
Proof.
  intros size. apply (act_ind' (fun a => forall base cur, 0 <= cur <= 100 -> all_fit size base a -> no_error a ->
    (cur + depth a <= 100 -> activate size cur base a = Ok (cur, false)) /\
    (100 < cur + depth a -> exists c, activate size cur base a = Ok (c, true)))).
  intros nl need body err IH base cur Hc Hf Hn.
  rewrite activate_eq. destruct Hf as [Hnl [Hneed [Hs Hb]]]. change (all_body size (base + nl) body) in Hb.
  destruct Hn as [-> Hn]. change (ne_body body) in Hn.
  change (depth (Act nl need body false)) with (1 + depth_body body).
  unfold call_max. destruct (100 <=? cur) eqn:E1.
  { apply Z.leb_le in E1. split; [|intros _; eexists; reflexivity]. intros K. exfalso.
    assert (0 <= depth_body body). { clear. induction body as [|[o x] b IHb]; [cbn; lia|]. cbn. fold depth_body. lia. }
    lia. }
  apply Z.leb_gt in E1. rewrite leb_f by lia. rewrite ltb_f by lia.
  assert (G : forall b, (forall off x, In (off, x) b -> In (off, x) body) -> all_body size (base + nl) b -> ne_body b ->
    (cur + 1 + depth_body b <= 100 -> calls size (base + nl) false (cur + 1) b = Ok (cur, false)) /\
    (100 < cur + 1 + depth_body b -> exists c, calls size (base + nl) false (cur + 1) b = Ok (c, true))).
  { induction b as [|[off x] b IHb]; intros Hin Hfb Hnb.
    - cbn [calls depth_body]. split; [|lia]. intros _. rewrite leave_ok by lia. f_equal. f_equal. lia.
    - destruct Hfb as [Ho [Hx Hb']]. destruct Hnb as [Nx Nb].
      destruct (IH off x (Hin off x (or_introl eq_refl)) (base + nl + off) (cur + 1) ltac:(lia) Hx Nx) as [A B].
      destruct (IHb (fun o y I => Hin o y (or_intror I)) Hb' Nb) as [A' B'].
      cbn [calls]. cbn [depth_body]. fold depth_body. change ((fix go (b0 : list (Z * act)) : Z := match b0 with | [] => 0 | (_, x0) :: b' => Z.max (depth x0) (go b') end) b) with (depth_body b).
      split.
      + intros K. rewrite A by lia. apply A'. lia.
      + intros K. destruct (Z.le_gt_cases (cur + 1 + depth x) 100).
        * rewrite A by lia. apply B'. lia.
        * destruct (B ltac:(lia)) as [c Ec]. rewrite Ec. exists c. reflexivity. }
  destruct (G body (fun o y I => I) Hb Hn) as [A B].
  split; intros K; [apply A; lia | apply B; lia].
Qed.

(** A program whose calls fit the value stack runs to its end if and only if it nests at most 100
    calls; otherwise it stops with an error. *)
Theorem C47_runaway_recursion_stopped : forall size a, all_fit size 0 a -> no_error a ->
  (depth a <= 100 -> activate size 0 0 a = Ok (0, false)) /\
  (100 < depth a -> exists c, activate size 0 0 a = Ok (c, true)).
Proof. intros size a Hf Hn. apply (activate_exact size a 0 0 ltac:(lia) Hf Hn). Qed.
Print Assumptions C47_runaway_recursion_stopped.

(** If the value stack is too small for the main program, the error path itself uses the call
    frame before the first one (vm_script_function.cpp:79-82 jumps to the exit before the frame
    was entered). *)
Theorem C47_main_too_big_refuted : forall size nl need body err, size <= nl + need ->
  activate size 0 0 (Act nl need body err) = UB.
Proof.
  intros size nl need body err H. rewrite activate_eq. unfold call_max.
  rewrite (leb_f 100 0) by lia. rewrite (leb_t size) by lia.
  destruct (size <=? 0 + nl); reflexivity.
Qed.
Print Assumptions C47_main_too_big_refuted.

(** At any call depth, a function whose local variables alone reach the end of the value stack
    makes the error path write beyond it (line 681). *)
Theorem C47_locals_beyond_stack_refuted : forall size cur base nl need body err,
  cur < 100 -> 0 <= need -> size <= base + nl -> activate size cur base (Act nl need body err) = UB.
Proof.
  intros size cur base nl need body err H N K. rewrite activate_eq. unfold call_max.
  rewrite (leb_f 100) by lia. rewrite (leb_t size) by lia. rewrite (leb_t size) by lia. reflexivity.
Qed.
Print Assumptions C47_locals_beyond_stack_refuted.

(** A chain of [n] nested calls. *)
Fixpoint chain (n : nat) : act := match n with O => Act 0 1 [] false | S n' => Act 0 1 [(0, chain n')] false end.
Lemma chain_facts : forall n, depth (chain n) = Z.of_nat n + 1 /\ no_error (chain n) /\ all_fit 256 0 (chain n).
Proof.
  induction n as [|n [D [N F]]]; [repeat split; lia|].
  split; [|split].
  - cbn [chain depth]. rewrite D. lia.
  - cbn. repeat split. exact N.
  - cbn [chain all_fit]. repeat split; try lia. exact F.
Qed.
Example C47_case :
  activate 256 0 0 (chain 99) = Ok (0, false) /\ (exists c, activate 256 0 0 (chain 100) = Ok (c, true)) /\
  locals_fit 256 0 (Act 2 3 [(1, Act 250 1 [] false)] false) /\
  activate 256 1 0 (Act 2 3 [(1, Act 250 4 [] false)] false) = Ok (1, true).
Proof.
  split; [|split; [|split]].
  - destruct (chain_facts 99) as [D [N F]]. apply (C47_runaway_recursion_stopped 256 _ F N). rewrite D. cbn. lia.
  - destruct (chain_facts 100) as [D [N F]]. apply (C47_runaway_recursion_stopped 256 _ F N). rewrite D. cbn. lia.
  - cbn. lia.
  - reflexivity.
Qed.
