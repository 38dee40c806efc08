(** C103-C107: calls of native functions. *)
From Coq Require Import List ZArith Bool String SpecFloat Lia.
From Verif Require Import FloatModel StringModel NativeModel NativeSpec NativeProofs.
Import ListNotations.
Local Open Scope Z_scope.

(** ** C103: the overload of a call *)

(** At a call instruction run for the first time, the function run is one of the scope that
    suits the call, and no function registered after it does. *)
Theorem C103_suitable_partial : forall w c r s',
  ranked w -> searched w (cfun c) -> call_at w None c = (Ok r, s') ->
  suitable w (fname (cfun c)) (cargs c) (rfun r) /\
  exists l1 l2, scope_of w c = l1 ++ rfun r :: l2 /\
                forall g, In g l2 -> ~ suitable w (fname (cfun c)) (cargs c) g.
Proof.
  intros w c r s' HR SD H; rewrite (call_at_searched _ _ _ SD), deduce_none in H.
  destruct (fresh w c) as [f|] eqn:F; injection H as H <-; [|discriminate].
  pose proof (fresh_in _ _ _ F) as [_ FC]. pose proof (candidate_name _ _ _ _ FC) as (_ & _ & L).
  apply exec_native_ok in H; [|exact L]. destruct H as (-> & _).
  split; [now apply candidate_iff|].
  unfold fresh, find_native in F. apply find_rev_last in F. destruct F as (l1 & l2 & E & _ & N).
  exists l1, l2; split; [exact E|]. intros g Hg Hs. apply candidate_iff in Hs; auto. rewrite (N g Hg) in Hs; discriminate.
Qed.

(** When no function suits, the call is an error. *)
Theorem C103_none_suitable : forall w c,
  ranked w -> searched w (cfun c) ->
  (forall g, In g (scope_of w c) -> ~ suitable w (fname (cfun c)) (cargs c) g) ->
  fst (call_at w None c) = Thr.
Proof.
  intros w c HR SD H; rewrite (call_at_searched _ _ _ SD), deduce_none.
  destruct (fresh w c) as [f|] eqn:F; [|reflexivity].
  apply fresh_in in F; destruct F as [A B]. apply candidate_iff in B; auto. now destruct (H f A).
Qed.

(** When just one function suits, it is the one run: the result is an error or its run. *)
Theorem C103_only_one_suitable : forall w c f,
  ranked w -> searched w (cfun c) -> In f (scope_of w c) -> suitable w (fname (cfun c)) (cargs c) f ->
  (forall g, In g (scope_of w c) -> suitable w (fname (cfun c)) (cargs c) g -> g = f) ->
  call_at w None c = (exec_native w f (crecv c) (cargs c), Some f).
Proof.
  intros w c f HR SD I S U; rewrite (call_at_searched _ _ _ SD), deduce_none.
  destruct (fresh w c) as [g|] eqn:F.
  - apply fresh_in in F; destruct F as [A B]. apply candidate_iff in B; auto. now rewrite (U g A B).
  - exfalso. unfold fresh, find_native in F. apply candidate_iff in S; auto.
    rewrite (proj1 (find_rev_none _ _) F f I) in S; discriminate.
Qed.

(** Not so: of an overload for integers and one for floats, the one registered last is run for
    both.  Integers given to functions registered in the order of the project's own example
    (test/api/test_perf_warning_native_find.cpp:25-26) go to the float overload. *)
Theorem C103_integers_refuted : forall w l1 l2 fi ff zs,
  fname fi = fname ff -> fowner fi = T_MAIN -> fmember fi = false ->
  fnative ff = true -> fmember ff = false ->
  fparams fi = repeat T_INT (List.length zs) -> fparams ff = repeat T_FLOAT_PTR (List.length zs) ->
  (0 < List.length zs < 10)%nat -> globals w = l1 ++ fi :: l2 ++ [ff] ->
  Forall2 exact (map VInt zs) (fparams fi) /\ fi <> ff /\
  call_at w None (NCall None fi (map VInt zs)) =
    (Ok (Run ff None (map (fun z => QFloatPtr (of_int z)) zs)), Some ff).
Proof.
  intros w l1 l2 fi ff zs EN OW MI NF MF PI PF LN G.
  assert (LM : forall (A : Type) (x : A), List.length (repeat x (List.length zs)) = List.length zs) by (intros; apply repeat_length).
  split; [|split].
  - rewrite PI. clear. induction zs as [|z zs IH]; cbn [map repeat List.length]; constructor; [now left|exact IH].
  - intros ->. rewrite PI in PF. destruct zs; cbn [List.length repeat] in *; [lia|]. discriminate.
  - rewrite call_at_searched by (right; right; exists l1, fi, l2, ff, []; auto). rewrite deduce_none. unfold fresh.
    assert (SC : scope_of w (NCall None fi (map VInt zs)) = (l1 ++ fi :: l2) ++ [ff]).
    { unfold scope_of; cbn [crecv cfun]. rewrite OW, MI, Z.eqb_refl; cbn [negb andb]. rewrite G, <- app_assoc. reflexivity. }
    rewrite SC. cbn [cfun cargs crecv]. rewrite EN.
    assert (C : candidate w (fname ff) (map VInt zs) ff = true).
    { unfold candidate. rewrite String.eqb_refl, NF, PF; cbn [andb]. apply forall2b_map_repeat; auto. }
    rewrite (find_last_app _ _ _ _ _ C). f_equal.
    assert (PA : forall zs : list Z, pass_args w (map VInt zs) (repeat T_FLOAT_PTR (List.length zs)) = Ok (map (fun z => QFloatPtr (of_int z)) zs)).
    { clear. induction zs as [|z zs IH]; [reflexivity|].
      cbn [map repeat List.length pass_args]. rewrite IH. reflexivity. }
    apply exec_native_runs; auto.
    + now rewrite PF, LM, map_length.
    + unfold start_param; rewrite MF, map_length. unfold max_args; lia.
    + rewrite MF; split; congruence.
    + rewrite PF. apply PA.
Qed.

(** In the other order floats go to the integer overload, cut to integers. *)
Theorem C103_floats_refuted : forall w l1 l2 fi ff fs zs,
  fname fi = fname ff -> fowner ff = T_MAIN -> fmember ff = false ->
  fnative fi = true -> fmember fi = false ->
  fparams fi = repeat T_INT (List.length fs) -> fparams ff = repeat T_FLOAT_PTR (List.length fs) ->
  (0 < List.length fs < 10)%nat -> globals w = l1 ++ ff :: l2 ++ [fi] ->
  Forall2 (fun f z => trunc f = Ok z) fs zs ->
  Forall2 exact (map VFloat fs) (fparams ff) /\ fi <> ff /\ Forall2 cut fs zs /\
  call_at w None (NCall None ff (map VFloat fs)) = (Ok (Run fi None (map QInt zs)), Some fi).
Proof.
  intros w l1 l2 fi ff fs zs EN OW MI NF MF PI PF LN G TR.
  assert (LM : forall (A : Type) (x : A), List.length (repeat x (List.length fs)) = List.length fs) by (intros; apply repeat_length).
  split; [|split; [|split]].
  - rewrite PF. clear. induction fs as [|z zs IH]; cbn [map repeat List.length]; constructor; [reflexivity|exact IH].
  - intros ->. rewrite PI in PF. destruct fs; cbn [List.length repeat] in *; [lia|]. discriminate.
  - clear - TR. induction TR; constructor; [now apply trunc_cut|assumption].
  - rewrite call_at_searched by (right; right; exists l1, ff, l2, fi, []; auto). rewrite deduce_none. unfold fresh.
    assert (SC : scope_of w (NCall None ff (map VFloat fs)) = (l1 ++ ff :: l2) ++ [fi]).
    { unfold scope_of; cbn [crecv cfun]. rewrite OW, MI, Z.eqb_refl; cbn [negb andb]. rewrite G, <- app_assoc. reflexivity. }
    rewrite SC. cbn [cfun cargs crecv]. rewrite <- EN.
    assert (C : candidate w (fname fi) (map VFloat fs) fi = true).
    { unfold candidate. rewrite String.eqb_refl, NF, PI; cbn [andb]. apply forall2b_map_repeat; auto. }
    rewrite (find_last_app _ _ _ _ _ C). f_equal.
    apply exec_native_runs; auto.
    + now rewrite PI, LM, map_length.
    + unfold start_param; rewrite MF, map_length. unfold max_args; lia.
    + rewrite MF; split; congruence.
    + rewrite PI. clear - TR. induction TR as [|f z fs zs T TR IH]; [reflexivity|].
      cbn [map repeat List.length pass_args]. rewrite IH. cbn. now rewrite T.
Qed.

(** With [zs_int *] parameters the overload chosen for a float cannot even take it. *)
Theorem C103_integer_pointer_refuted : forall w l1 l2 fi ff x,
  fname fi = fname ff -> fowner ff = T_MAIN -> fmember ff = false ->
  fnative fi = true -> fparams fi = [T_INT_PTR] -> fparams ff = [T_FLOAT_PTR] ->
  globals w = l1 ++ ff :: l2 ++ [fi] ->
  exact (VFloat x) T_FLOAT_PTR /\ fst (call_at w None (NCall None ff [VFloat x])) = Thr.
Proof.
  intros w l1 l2 fi ff x EN OW MI NF PI PF G. split; [reflexivity|].
  rewrite call_at_searched by (right; right; exists l1, ff, l2, fi, []; auto). rewrite deduce_none. unfold fresh.
  assert (SC : scope_of w (NCall None ff [VFloat x]) = (l1 ++ ff :: l2) ++ [fi]).
  { unfold scope_of; cbn [crecv cfun]. rewrite OW, MI, Z.eqb_refl; cbn [negb andb]. rewrite G, <- app_assoc. reflexivity. }
  rewrite SC. cbn [cfun cargs crecv]. rewrite <- EN.
  assert (C : candidate w (fname fi) [VFloat x] fi = true).
  { unfold candidate. rewrite String.eqb_refl, NF, PI. reflexivity. }
  rewrite (find_last_app _ _ _ _ _ C). cbn [fst].
  unfold exec_native; rewrite NF, PI; cbn [negb].
  destruct (max_args <? _)%nat; [reflexivity|]. destruct (negb _); reflexivity.
Qed.

(** ** C104: a call on an object runs a function of its type *)

(** As long as the calls made by one instruction are on objects of one type and of one name. *)
Theorem C104_own_function_partial : forall w t name cs rs s',
  Forall (fun c => exists o, crecv c = Some o /\ otype o = t /\ fname (cfun c) = name) cs ->
  calls_at w None cs = (rs, s') ->
  Forall2 (fun c r => forall x, r = Ok x ->
             In (rfun x) (tfuns (info w t)) /\ fname (rfun x) = name /\ fmember (rfun x) = true /\
             List.length (fparams (rfun x)) = List.length (cargs c) /\ rthis x = crecv c) cs rs.
Proof.
  intros w t name cs rs s' HC H.
  destruct (calls_at_inv w (fun f => In f (tfuns (info w t)) /\ fname f = name) cs None rs s') as [_ F]; auto.
  - intros c f I E. rewrite Forall_forall in HC. destruct (HC c I) as (o & R & T & N).
    apply fresh_in in E; destruct E as [A B]. apply candidate_name in B; destruct B as (B & _).
    unfold scope_of in A; rewrite R, T in A. split; [exact A|congruence].
  - intros c I _ E. rewrite Forall_forall in HC. destruct (HC c I) as (o & R & _). congruence.
  - exact Logic.I.
  - clear H. revert HC. induction F as [|c r cs rs HF F IH]; intro HC; constructor.
    + inversion HC as [|? ? (o & R & T & N) _]; subst. intros x X. destruct (HF x X) as ((A & B) & C & D & E & _).
      repeat split; auto. apply E. rewrite R; discriminate.
    + apply IH. now inversion HC.
Qed.

(** The first call of an instruction is looked up in the type of the object. *)
Theorem C104_first_call_partial : forall w c o r s',
  ranked w -> crecv c = Some o -> call_at w None c = (Ok r, s') ->
  In (rfun r) (tfuns (info w (otype o))) /\ suitable w (fname (cfun c)) (cargs c) (rfun r) /\ rthis r = Some o.
Proof.
  intros w c o r s' HR RO H.
  destruct (call_at_inv w (fun f => In f (scope_of w c) /\ suitable w (fname (cfun c)) (cargs c) f) None c (Ok r) s') as [_ F]; auto.
  - intros f E; apply fresh_in in E; destruct E as [A B]; split; [exact A|now apply candidate_iff].
  - intros _ E. congruence.
  - exact Logic.I.
  - destruct (F r eq_refl) as ((A & B) & _ & D & _). unfold scope_of in A; rewrite RO in A. repeat split; auto; try apply B. congruence.
Qed.

(** Not so when the type changes: after a call on an object of one type, the same instruction
    runs the function of that type on objects of any other type. *)
Theorem C104_other_type_refuted : forall w o1 o2 l f g,
  tfuns (info w (otype o1)) = l ++ [f] -> fnative f = true -> fmember f = true -> fparams f = [] ->
  fname g = fname f -> fmember g = true -> fowner f = otype o1 -> ~ Extends w (otype o2) (otype o1) ->
  calls_at w None [NCall (Some o1) f []; NCall (Some o2) g []] =
    ([Ok (Run f (Some o1) []); Ok (Run f (Some o2) [])], Some f) /\
  fowner f <> otype o2.
Proof.
  intros w o1 o2 l f g T N M P EN MG OW NE. split.
  - assert (X : forall o, exec_native w f (Some o) [] = Ok (Run f (Some o) [])).
    { intro o. apply exec_native_runs; [exact N|now rewrite P| | |now rewrite P].
      - unfold start_param, max_args; rewrite M; cbn [List.length]; lia.
      - split; [discriminate|auto]. }
    cbn [calls_at]. rewrite call_at_searched by now left. rewrite deduce_none. unfold fresh, scope_of; cbn [crecv cfun cargs].
    assert (C : candidate w (fname f) [] f = true) by (unfold candidate; now rewrite String.eqb_refl, N, P).
    rewrite T, (find_last_app _ _ _ _ _ C), X. rewrite call_at_searched by now left. unfold deduce, reusable; cbn [cargs crecv]. rewrite P. cbn [forall2b].
    now rewrite X.
  - rewrite OW; intro E. apply NE. rewrite <- E. constructor.
Qed.

(** ** C105: what a call runs does not depend on earlier calls *)

(** The call of each instruction always with arguments of the same types. *)
Theorem C105_same_types_partial : forall w c0 cs,
  Forall (fun c => scope_of w c = scope_of w c0 /\ fname (cfun c) = fname (cfun c0) /\
                   Forall2 same_type (cargs c0) (cargs c)) cs ->
  fst (calls_at w None cs) = map (fun c => fst (call_at w None c)) cs.
Proof.
  intros w c0 cs H.
  assert (G : forall s, (s = None \/ s = fresh w c0) -> fst (calls_at w s cs) = map (fun c => fst (call_at w None c)) cs).
  { induction H as [|c cs (A & B & C) H IH]; intros s HS; [reflexivity|].
    assert (FE : fresh w c = fresh w c0).
    { unfold fresh. rewrite A, B. symmetry. now apply find_native_same. }
    cbn [calls_at map]. destruct (call_at w s c) as [r s1] eqn:E1.
    assert (R : r = fst (call_at w None c) /\ (s1 = None \/ s1 = fresh w c0)).
    { unfold call_at in E1 |- *. destruct (deduced w (cfun c)); [|injection E1 as <- <-; auto]. rewrite deduce_none. destruct (deduce w s c) as [[f|] s2] eqn:D; injection E1 as <- <-.
      - apply deduce_cases in D; destruct D as [-> D].
        assert (FF : fresh w c = Some f) by (destruct D as [[D _]|D]; [destruct HS as [HS|HS]; congruence|exact D]).
        rewrite FF; cbn [fst]. split; [reflexivity|right; congruence].
      - apply deduce_fail in D; destruct D as [-> D]. rewrite D; cbn [fst]. split; [reflexivity|exact HS]. }
    destruct R as [-> R]. destruct (calls_at w s1 cs) as [rs s3] eqn:E2. cbn [fst]. f_equal.
    specialize (IH s1 R). rewrite E2 in IH. exact IH. }
  apply G; now left.
Qed.

(** Not so for overloads on a class and one derived from it: once called with the base, the
    instruction keeps to the base's overload, though the derived class has its own. *)
Theorem C105_derived_refuted : forall w b d fb fd o1 o2 l,
  ranked w -> T_CLASS_OBJECT < b -> T_CLASS_OBJECT < d ->
  tnative (info w b) = true -> tnative (info w d) = true ->
  Extends w d b -> ~ Extends w b d -> otype o1 = b -> otype o2 = d ->
  fname fb = fname fd -> fowner fb = T_MAIN -> fmember fb = false -> fmember fd = false ->
  fnative fb = true -> fnative fd = true -> fparams fb = [b] -> fparams fd = [d] ->
  globals w = l ++ [fb; fd] ->
  fst (calls_at w None [NCall None fb [VObj o1]; NCall None fb [VObj o2]]) =
    [Ok (Run fb None [QNative o1]); Ok (Run fb None [QNative o2])] /\
  fst (call_at w None (NCall None fb [VObj o2])) = Ok (Run fd None [QNative o2]).
Proof.
  intros w b d fb fd o1 o2 l HR LB LD NB ND X NX T1 T2 EN OW MB MD NAB NAD PB PD G.
  assert (SD : searched w fb) by (right; right; exists l, fb, [], fd, []; auto).
  assert (TB : b <> d) by (intros ->; apply NX; constructor).
  unfold T_CLASS_OBJECT in *.
  assert (SC : forall a, scope_of w (NCall None fb a) = (l ++ [fb]) ++ [fd]).
  { intro a. unfold scope_of; cbn [crecv cfun]. rewrite OW, MB, Z.eqb_refl; cbn [negb andb]. rewrite G, <- app_assoc. reflexivity. }
  assert (FA : forall o p, T_CLASS_OBJECT < otype o -> T_CLASS_OBJECT < p -> find_accepts w (VObj o) p = extends w (otype o) p).
  { intros o p A B. unfold T_CLASS_OBJECT in *. unfold find_accepts.
    replace (p =? T_STACK_ELEMENT) with false by (symmetry; apply Z.eqb_neq; unfold T_STACK_ELEMENT; lia).
    replace (otype o =? T_STRING_OBJECT) with false by (symmetry; apply Z.eqb_neq; unfold T_STRING_OBJECT; lia). reflexivity. }
  assert (NC : forall o, tnative (info w (otype o)) = true -> native_class w o = Some (otype o)).
  { intros o E; apply native_class_iff; auto. now constructor. }
  assert (PO : forall o p, T_CLASS_OBJECT < otype o -> T_CLASS_OBJECT < p -> tnative (info w (otype o)) = true ->
               Extends w (otype o) p -> pass_arg w (VObj o) p = Ok (QNative o) /\ can_cast w (VObj o) p = true).
  { intros o p A B E EX. unfold T_CLASS_OBJECT in *. unfold pass_arg, stack_to, can_cast, pass_object, cast_object.
    replace (p =? T_STACK_ELEMENT) with false by (symmetry; apply Z.eqb_neq; unfold T_STACK_ELEMENT; lia).
    replace (otype o =? T_STRING_OBJECT) with false by (symmetry; apply Z.eqb_neq; unfold T_STRING_OBJECT; lia).
    replace (T_CLASS_OBJECT <=? otype o) with true by (symmetry; apply Z.leb_le; unfold T_CLASS_OBJECT; lia).
    replace (p =? T_CLASS_OBJECT) with false by (symmetry; apply Z.eqb_neq; unfold T_CLASS_OBJECT; lia).
    rewrite (NC o E), (proj2 (extends_iff w HR _ _) EX). destruct (p =? otype o); auto. }
  assert (EXB : forall o, pass_arg w (VObj o) b = Ok (QNative o) -> exec_native w fb None [VObj o] = Ok (Run fb None [QNative o])).
  { intros o E. apply exec_native_runs; auto.
    - now rewrite PB.
    - unfold start_param, max_args; rewrite MB; cbn [List.length]; lia.
    - rewrite MB; split; congruence.
    - rewrite PB; cbn [pass_args]. now rewrite E. }
  assert (EXD : forall o, pass_arg w (VObj o) d = Ok (QNative o) -> exec_native w fd None [VObj o] = Ok (Run fd None [QNative o])).
  { intros o E. apply exec_native_runs; auto.
    - now rewrite PD.
    - unfold start_param, max_args; rewrite MD; cbn [List.length]; lia.
    - rewrite MD; split; congruence.
    - rewrite PD; cbn [pass_args]. now rewrite E. }
  destruct (PO o1 b) as [P1 K1]; [unfold T_CLASS_OBJECT; lia|unfold T_CLASS_OBJECT; lia|now rewrite T1|rewrite T1; constructor|].
  destruct (PO o2 b) as [P2 K2]; [unfold T_CLASS_OBJECT; lia|unfold T_CLASS_OBJECT; lia|now rewrite T2|now rewrite T2|].
  destruct (PO o2 d) as [P3 K3]; [unfold T_CLASS_OBJECT; lia|unfold T_CLASS_OBJECT; lia|now rewrite T2|rewrite T2; constructor|].
  assert (CB1 : candidate w (fname fb) [VObj o1] fb = true).
  { unfold candidate. rewrite String.eqb_refl, NAB, PB; cbn [andb forall2b].
    rewrite FA by (unfold T_CLASS_OBJECT; lia). rewrite T1, (proj2 (extends_iff w HR _ _) (Ext_refl w b)). reflexivity. }
  assert (CD1 : candidate w (fname fb) [VObj o1] fd = false).
  { unfold candidate. rewrite EN, String.eqb_refl, NAD, PD; cbn [andb forall2b].
    rewrite FA by (unfold T_CLASS_OBJECT; lia). rewrite T1. destruct (extends w b d) eqn:E; [|reflexivity].
    apply extends_iff in E; auto. now destruct NX. }
  assert (CD2 : candidate w (fname fb) [VObj o2] fd = true).
  { unfold candidate. rewrite EN, String.eqb_refl, NAD, PD; cbn [andb forall2b].
    rewrite FA by (unfold T_CLASS_OBJECT; lia). rewrite T2, (proj2 (extends_iff w HR _ _) (Ext_refl w d)). reflexivity. }
  assert (F1 : fresh w (NCall None fb [VObj o1]) = Some fb).
  { unfold fresh. rewrite SC; cbn [cfun cargs]. unfold find_native. rewrite rev_unit; cbn [find]. rewrite CD1.
    now apply find_last_app. }
  split.
  - cbn [calls_at]. rewrite (call_at_searched w None) by apply SD. rewrite deduce_none, F1; cbn [crecv cargs].
    rewrite (EXB o1 P1), call_at_searched by apply SD. unfold deduce, reusable; cbn [cargs crecv]. rewrite PB; cbn [forall2b].
    rewrite K2; cbn [andb]. now rewrite (EXB o2 P2).
  - rewrite call_at_searched by apply SD. rewrite deduce_none. unfold fresh. rewrite SC; cbn [cfun cargs crecv].
    rewrite (find_last_app _ _ _ _ _ CD2). cbn [fst]. exact (EXD o2 P3).
Qed.

(** Nor for null: refused for a first call, accepted after one with an object. *)
Theorem C105_null_refuted : forall w b fb o1 l g0,
  ranked w -> T_CLASS_OBJECT < b -> tnative (info w b) = true -> otype o1 = b ->
  fowner fb = T_MAIN -> fmember fb = false -> fnative fb = true -> fparams fb = [b] ->
  globals w = l ++ [fb] -> In g0 l -> fname g0 = fname fb ->
  (forall g, In g l -> fname g = fname fb -> ~ In T_STACK_ELEMENT (fparams g)) ->
  fst (calls_at w None [NCall None fb [VObj o1]; NCall None fb [VNull]]) =
    [Ok (Run fb None [QNative o1]); Ok (Run fb None [QZero])] /\
  fst (call_at w None (NCall None fb [VNull])) = Thr.
Proof.
  intros w b fb o1 l g0 HR LB NB T1 OW MB NAB PB G IG EG NSE. unfold T_CLASS_OBJECT in LB.
  assert (SD : searched w fb).
  { right; right. apply in_split in IG; destruct IG as (l1 & l2 & ->). exists l1, g0, l2, fb, []. rewrite G, <- app_assoc. auto. }
  assert (SC : forall a, scope_of w (NCall None fb a) = l ++ [fb]).
  { intro a. unfold scope_of; cbn [crecv cfun]. rewrite OW, MB, Z.eqb_refl; cbn [negb andb]. exact G. }
  assert (SE : (b =? T_STACK_ELEMENT) = false) by (apply Z.eqb_neq; unfold T_STACK_ELEMENT; lia).
  assert (SO : (b =? T_STRING_OBJECT) = false) by (apply Z.eqb_neq; unfold T_STRING_OBJECT; lia).
  assert (EX : forall v q, pass_arg w v b = Ok q -> exec_native w fb None [v] = Ok (Run fb None [q])).
  { intros v q E. apply exec_native_runs; auto.
    - now rewrite PB.
    - unfold start_param, max_args; rewrite MB; cbn [List.length]; lia.
    - rewrite MB; split; congruence.
    - rewrite PB; cbn [pass_args]. now rewrite E. }
  assert (P1 : pass_arg w (VObj o1) b = Ok (QNative o1)).
  { unfold pass_arg, stack_to, pass_object. rewrite SE, T1, Z.eqb_refl.
    replace (T_CLASS_OBJECT <=? b) with true by (symmetry; apply Z.leb_le; unfold T_CLASS_OBJECT; lia).
    assert (NC : native_class w o1 = Some b) by (apply native_class_iff; auto; rewrite T1; now constructor).
    now rewrite NC. }
  assert (P2 : pass_arg w VNull b = Ok QZero) by (unfold pass_arg, stack_to; now rewrite SE).
  split.
  - cbn [calls_at]. rewrite (call_at_searched w None) by apply SD. rewrite deduce_none. unfold fresh; rewrite SC; cbn [crecv cargs cfun].
    assert (C : candidate w (fname fb) [VObj o1] fb = true).
    { unfold candidate. rewrite String.eqb_refl, NAB, PB; cbn [andb forall2b]. unfold find_accepts.
      rewrite SE, T1, SO, (proj2 (extends_iff w HR _ _) (Ext_refl w b)). reflexivity. }
    rewrite (find_last_app _ _ _ _ _ C), (EX _ _ P1), call_at_searched by apply SD. unfold deduce, reusable; cbn [cargs crecv].
    rewrite PB; cbn [forall2b]. unfold can_cast; rewrite SE; cbn [andb]. now rewrite (EX _ _ P2).
  - apply C103_none_suitable; auto. intros g I (A & B & C). rewrite SC in I. cbn [cfun cargs] in *.
    inversion C as [|v p a ps S1 S2 E1 E2]; subst. inversion S1; subst.
    apply in_app_iff in I; destruct I as [I|[<-|[]]].
    + apply (NSE g I A). rewrite <- E2. now left.
    + rewrite PB in E2. injection E2 as E2 _. rewrite <- E2 in SE. discriminate.
Qed.

(** ** C106: a native function is given values of the types it declares *)

(** A first call: the function found by the types of the arguments. *)
Theorem C106_first_call_typed_partial : forall w c r s',
  wf_world w -> searched w (cfun c) -> (forall f, In f (scope_of w c) -> native_params w f) ->
  call_at w None c = (Ok r, s') -> Forall2 (Typed w) (fparams (rfun r)) (rargs r).
Proof.
  intros w c r s' WF SD NP H. assert (HR : ranked w) by apply WF.
  destruct (call_at_inv w (fun f => In f (scope_of w c) /\ suitable w (fname (cfun c)) (cargs c) f) None c (Ok r) s') as [_ F]; auto.
  - intros f E; apply fresh_in in E; destruct E as [A B]; split; [exact A|now apply candidate_iff].
  - intros E _. rewrite (searched_deduced _ _ SD) in E. discriminate.
  - exact Logic.I.
  - destruct (F r eq_refl) as ((A & (_ & _ & B)) & _ & _ & _ & D).
    eapply pass_args_typed; [|exact D]. specialize (NP _ A). unfold native_params in NP.
    clear D F H A. revert NP. induction B as [|v p a ps S1 S2 IH]; intro NP; constructor.
    + intros q Q. eapply suits_typed; eauto. now inversion NP.
    + apply IH. now inversion NP.
Qed.

(** Any function, overloaded or not, at any call: for arguments that are no functions and no
    objects of classes written in the script. *)
Theorem C106_typed_partial : forall w f this args r,
  ranked w -> native_params w f -> Forall (fun v => ~ unchecked w v) args ->
  List.length args = List.length (fparams f) ->
  exec_native w f this args = Ok r -> Forall2 (Typed w) (fparams f) (rargs r).
Proof.
  intros w f this args r HR NP NU L H. apply exec_native_ok in H; [|exact L]. destruct H as (_ & _ & _ & H).
  eapply pass_args_typed; [|exact H]. unfold native_params in NP. clear H.
  revert args NU L; induction NP as [|p ps OK NP IH]; intros [|v args] NU L; try discriminate; constructor.
  - intros q Q. eapply pass_arg_typed; eauto. now inversion NU.
  - apply IH; [now inversion NU|]. now injection L.
Qed.

(** Not so for these: a function declared for any other type receives the script object, or
    the function, where it expects a value of its own type. *)
Theorem C106_script_object_refuted : forall w f o p,
  ranked w -> script_only w o -> fnative f = true -> fmember f = false -> fparams f = [p] ->
  p <> otype o -> p <> T_CLASS_OBJECT -> p <> T_STACK_ELEMENT ->
  exec_native w f None [VObj o] = Ok (Run f None [QScript o]) /\ ~ Typed w p (QScript o).
Proof.
  intros w f o p HR SO N M P A B C. split; [|now apply script_not_typed].
  apply script_only_none in SO; auto. destruct SO as [L NC].
  apply exec_native_runs; auto.
  - now rewrite P.
  - unfold start_param, max_args; rewrite M; cbn [List.length]; lia.
  - rewrite M; split; congruence.
  - rewrite P; cbn [pass_args pass_arg]. unfold stack_to, pass_object.
    apply Z.eqb_neq in A, B, C. rewrite A, B, C, NC.
    replace (otype o =? T_STRING_OBJECT) with false
      by (symmetry; apply Z.eqb_neq; unfold T_STRING_OBJECT, T_CLASS_OBJECT in *; lia).
    apply Z.leb_le in L; rewrite L. reflexivity.
Qed.

Theorem C106_function_refuted : forall w f g p,
  fnative f = true -> fmember f = false -> fparams f = [p] ->
  p <> T_SCRIPT_FUNCTION -> p <> T_STACK_ELEMENT ->
  exec_native w f None [VFun g] = Ok (Run f None [QFun g]) /\ ~ Typed w p (QFun g).
Proof.
  intros w f g p N M P A B. split; [|now apply fun_not_typed].
  apply exec_native_runs; auto.
  - now rewrite P.
  - unfold start_param, max_args; rewrite M; cbn [List.length]; lia.
  - rewrite M; split; congruence.
  - rewrite P; cbn [pass_args pass_arg]. unfold stack_to. apply Z.eqb_neq in B; rewrite B. reflexivity.
Qed.

(** ** C107: no signature is registered twice *)
Theorem C107_signatures_distinct : forall fs, registered fs -> forall i j f g,
  i <> j -> nth_error fs i = Some f -> nth_error fs j = Some g ->
  ~ (fname f = fname g /\ fmember f = fmember g /\ fparams f = fparams g).
Proof.
  intros fs H; induction H as [|fs x fs' H IH R]; intros i j f g NE I J.
  - destruct i; discriminate.
  - unfold register in R. destruct (existsb (same_signature x) fs) eqn:E; [discriminate|]. injection R as <-.
    assert (NX : forall y, In y fs -> ~ (fname x = fname y /\ fmember x = fmember y /\ fparams x = fparams y)).
    { intros y Hy S. apply same_signature_iff in S.
      assert (T : existsb (same_signature x) fs = true) by (apply existsb_exists; eauto). congruence. }
    destruct (Nat.lt_ge_cases i (List.length fs)) as [Li|Li]; destruct (Nat.lt_ge_cases j (List.length fs)) as [Lj|Lj].
    + rewrite nth_error_app1 in I, J by assumption. eapply IH; eauto.
    + rewrite nth_error_app1 in I by assumption. rewrite nth_error_app2 in J by assumption.
      destruct (j - List.length fs)%nat as [|k]; cbn in J; [injection J as <-|destruct k; discriminate].
      intros (A & B & C). apply (NX f); [now apply nth_error_In in I|]. auto.
    + rewrite nth_error_app2 in I by assumption. rewrite nth_error_app1 in J by assumption.
      destruct (i - List.length fs)%nat as [|k]; cbn in I; [injection I as <-|destruct k; discriminate].
      apply NX. now apply nth_error_In in J.
    + assert (Hi : (i < List.length (fs ++ [x]))%nat) by (apply nth_error_Some; congruence).
      assert (Hj : (j < List.length (fs ++ [x]))%nat) by (apply nth_error_Some; congruence).
      rewrite app_length in Hi, Hj; cbn [List.length] in Hi, Hj. lia.
Qed.

(** A registration that is not accepted is one of a signature already there. *)
Theorem C107_refused_only_if_present : forall fs f,
  register fs f = None <-> exists g, In g fs /\ fname f = fname g /\ fmember f = fmember g /\ fparams f = fparams g.
Proof.
  intros fs f; unfold register. destruct (existsb (same_signature f) fs) eqn:E; split; intro H; try discriminate; auto.
  - apply existsb_exists in E; destruct E as (g & A & B). exists g; split; [exact A|]. now apply same_signature_iff.
  - exfalso. destruct H as (g & A & B). apply same_signature_iff in B.
    assert (T : existsb (same_signature f) fs = true) by (apply existsb_exists; eauto). congruence.
Qed.

(** ** Cases *)
(** The types of the built-in library that matter here, a native class 30 with a derived class
    31, a class 40 of the script. *)
Definition s_clear := NFun "clear" T_STRING_OBJECT true true [] 1.
Definition s_contains := NFun "contains" T_STRING_OBJECT true true [T_STRING_PTR] 2.
Definition a_clear := NFun "clear" T_ARRAY_OBJECT true true [] 3.
Definition a_contains := NFun "contains" T_ARRAY_OBJECT true true [T_STACK_ELEMENT] 4.
Definition add_i := NFun "add" T_MAIN false true [T_INT; T_INT] 5.
Definition add_f := NFun "add" T_MAIN false true [T_FLOAT_PTR; T_FLOAT_PTR] 6.
Definition draw_b := NFun "draw" T_MAIN false true [30] 7.
Definition draw_i := NFun "draw" T_MAIN false true [T_INT] 12.
Definition draw_d := NFun "draw" T_MAIN false true [31] 8.
Definition world1 (gs : list nfun) : world :=
  W 2 (fun t => if t =? T_STRING_OBJECT then TI [] true [s_contains; s_clear]
                else if t =? T_ARRAY_OBJECT then TI [] true [a_contains; a_clear]
                else if t =? 30 then TI [] true []
                else if t =? 31 then TI [30] true []
                else TI [] false []) gs.

Lemma world1_wf gs : wf_world (world1 gs).
Proof.
  assert (B : forall t b, In b (tbases (info (world1 gs) t)) -> t = 31 /\ b = 30).
  { intros t b; cbn [info world1].
    destruct (t =? T_STRING_OBJECT); [intros []|]. destruct (t =? T_ARRAY_OBJECT); [intros []|].
    destruct (t =? 30); [intros []|]. destruct (t =? 31) eqn:E; [|intros []].
    apply Z.eqb_eq in E. intros [<-|[]]; auto. }
  repeat split.
  - exists (fun t => if t =? 31 then 1%nat else 0%nat). split.
    + intro t; cbn [ntypes world1]. destruct (t =? 31); lia.
    + intros t b H; apply B in H; destruct H as [-> ->]. cbn. lia.
  - intros t b1 b2 r E. assert (H1 : In b1 (tbases (info (world1 gs) t))) by (rewrite E; now left).
    apply B in H1. destruct H1 as [-> _]. reflexivity.
  - intros t b L H; apply B in H; destruct H as [_ ->]. unfold T_CLASS_OBJECT; lia.
Qed.

Definition f_5_5 : f64 := S754_finite false 11 (-1).
Definition f_m4_5 : f64 := S754_finite true 9 (-1).

Example C103_integers_case :
  call_at (world1 [add_i; add_f]) None (NCall None add_i [VInt 5; VInt 4]) =
    (Ok (Run add_f None [QFloatPtr (of_int 5); QFloatPtr (of_int 4)]), Some add_f).
Proof.
  apply (C103_integers_refuted (world1 [add_i; add_f]) [] [] add_i add_f [5; 4]); try reflexivity.
  cbn [List.length]; lia.
Qed.

Example C103_floats_case :
  call_at (world1 [add_f; add_i]) None (NCall None add_f [VFloat f_5_5; VFloat f_m4_5]) =
    (Ok (Run add_i None [QInt 5; QInt (-4)]), Some add_i).
Proof.
  apply (C103_floats_refuted (world1 [add_f; add_i]) [] [] add_i add_f [f_5_5; f_m4_5] [5; -4]); try reflexivity.
  - cbn [List.length]; lia.
  - repeat constructor.
Qed.

Example C103_suitable_case :
  call_at (world1 [draw_b; draw_d; add_i; add_f]) None (NCall None draw_b [VObj (Obj 100 30)]) =
    (Ok (Run draw_b None [QNative (Obj 100 30)]), Some draw_b)
  /\ fst (call_at (world1 [draw_b; draw_d]) None (NCall None draw_b [VInt 3])) = Thr.
Proof. split; reflexivity. Qed.

Example C103_integer_pointer_case :
  let fi := NFun "neg" T_MAIN false true [T_INT_PTR] 9 in
  let ff := NFun "neg" T_MAIN false true [T_FLOAT_PTR] 10 in
  fst (call_at (world1 [ff; fi]) None (NCall None ff [VFloat f_5_5])) = Thr.
Proof.
  intros fi ff.
  apply (C103_integer_pointer_refuted (world1 [ff; fi]) [] [] fi ff f_5_5); reflexivity.
Qed.

(** [function reset(x){ x.clear(); }  reset("a"); reset([1]);] *)
Example C104_other_type_case :
  let str := Obj 100 T_STRING_OBJECT in
  let arr := Obj 200 T_ARRAY_OBJECT in
  calls_at (world1 []) None [NCall (Some str) s_clear []; NCall (Some arr) a_clear []] =
    ([Ok (Run s_clear (Some str) []); Ok (Run s_clear (Some arr) [])], Some s_clear).
Proof.
  intros str arr.
  apply (C104_other_type_refuted (world1 []) str arr [s_contains] s_clear a_clear); try reflexivity.
  intro H; inversion H; subst. destruct H0.
Qed.

(** One type: two strings. *)
Example C104_own_function_case :
  fst (calls_at (world1 []) None
    [NCall (Some (Obj 100 T_STRING_OBJECT)) s_contains [VObj (Obj 101 T_STRING_OBJECT)];
     NCall (Some (Obj 102 T_STRING_OBJECT)) s_contains [VObj (Obj 103 T_STRING_OBJECT)]]) =
    [Ok (Run s_contains (Some (Obj 100 T_STRING_OBJECT)) [QStrPtr (Obj 101 T_STRING_OBJECT)]);
     Ok (Run s_contains (Some (Obj 102 T_STRING_OBJECT)) [QStrPtr (Obj 103 T_STRING_OBJECT)])].
Proof. reflexivity. Qed.

Example C105_derived_case :
  fst (calls_at (world1 [draw_b; draw_d]) None [NCall None draw_b [VObj (Obj 100 30)]; NCall None draw_b [VObj (Obj 101 31)]]) =
    [Ok (Run draw_b None [QNative (Obj 100 30)]); Ok (Run draw_b None [QNative (Obj 101 31)])].
Proof.
  apply (C105_derived_refuted (world1 [draw_b; draw_d]) 30 31 draw_b draw_d (Obj 100 30) (Obj 101 31) []);
    try reflexivity; try (unfold T_CLASS_OBJECT; lia).
  - apply world1_wf.
  - eapply Ext_base; [now left|constructor].
  - intro H; inversion H; subst. destruct H0.
Qed.

Example C105_null_case :
  fst (calls_at (world1 [draw_i; draw_b]) None [NCall None draw_b [VObj (Obj 100 30)]; NCall None draw_b [VNull]]) =
    [Ok (Run draw_b None [QNative (Obj 100 30)]); Ok (Run draw_b None [QZero])].
Proof.
  apply (C105_null_refuted (world1 [draw_i; draw_b]) 30 draw_b (Obj 100 30) [draw_i] draw_i); try reflexivity; try (unfold T_CLASS_OBJECT; lia).
  - apply world1_wf.
  - now left.
  - intros g [<-|[]] _ [H|[]]. discriminate.
Qed.

Example C105_same_types_case :
  fst (calls_at (world1 [add_f; add_i]) None [NCall None add_i [VInt 1; VInt 2]; NCall None add_i [VInt 3; VInt 4]]) =
    [Ok (Run add_i None [QInt 1; QInt 2]); Ok (Run add_i None [QInt 3; QInt 4])].
Proof.
  rewrite (C105_same_types_partial _ (NCall None add_i [VInt 1; VInt 2])); [reflexivity|].
  repeat constructor.
Qed.

Example C106_script_object_case :
  exec_native (world1 []) draw_b None [VObj (Obj 100 40)] = Ok (Run draw_b None [QScript (Obj 100 40)]) /\
  ~ Typed (world1 []) 30 (QScript (Obj 100 40)).
Proof.
  apply C106_script_object_refuted; try reflexivity; try (cbn [otype]; unfold T_CLASS_OBJECT, T_STACK_ELEMENT; lia).
  - apply world1_wf.
  - apply script_only_none; [apply world1_wf|]. split; [unfold T_CLASS_OBJECT; cbn [otype]; lia|reflexivity].
Qed.

Example C106_typed_case :
  Forall2 (Typed (world1 [])) [T_FLOAT_PTR; T_FLOAT_PTR] [QFloatPtr (of_int 5); QFloatPtr f_5_5].
Proof.
  apply (C106_typed_partial (world1 []) add_f None [VInt 5; VFloat f_5_5] (Run add_f None [QFloatPtr (of_int 5); QFloatPtr f_5_5]));
    try reflexivity.
  - apply world1_wf.
  - repeat constructor; unfold T_FLOAT_PTR, T_CLASS_OBJECT; lia.
  - repeat constructor; cbn [unchecked]; auto.
Qed.

Example C107_case :
  registered [add_i; add_f] /\ register [add_i; add_f] (NFun "add" T_MAIN false true [T_INT; T_INT] 11) = None.
Proof.
  split; [|reflexivity].
  apply Reg_one with (fs := [add_i]) (f := add_f); [|reflexivity].
  apply Reg_one with (fs := []) (f := add_i); [constructor|reflexivity].
Qed.

Print Assumptions C103_suitable_partial.
Print Assumptions C103_none_suitable.
Print Assumptions C103_only_one_suitable.
Print Assumptions C103_integers_refuted.
Print Assumptions C103_floats_refuted.
Print Assumptions C103_integer_pointer_refuted.
Print Assumptions C104_own_function_partial.
Print Assumptions C104_first_call_partial.
Print Assumptions C104_other_type_refuted.
Print Assumptions C105_same_types_partial.
Print Assumptions C105_derived_refuted.
Print Assumptions C105_null_refuted.
Print Assumptions C106_first_call_typed_partial.
Print Assumptions C106_typed_partial.
Print Assumptions C106_script_object_refuted.
Print Assumptions C106_function_refuted.
Print Assumptions C107_signatures_distinct.
Print Assumptions C107_refused_only_if_present.
