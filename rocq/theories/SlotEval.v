(** Proofs about containers held by containers: expressions and statements. *)
From Coq Require Import List ZArith Bool Arith Lia.
From Verif Require Import SlotModel SlotSpec SlotProofs SlotRun.
Import ListNotations.
Local Arguments Nat.eqb : simpl never.
Local Arguments Nat.modulo : simpl never.
Local Arguments Nat.ltb : simpl never.

(** *** Items *)
Lemma get_find h k l : get_item k (shown_items h l) = match find_cell k l with Some a => Some (shown_cell h a) | None => None end.
Proof. induction l as [|[k' a] l IH]; cbn; [auto|]. destruct (k =? k'); auto. Qed.
Lemma find_none k l : find_cell k l = None <-> ~ In k (map fst l).
Proof.
  induction l as [|[k' a] l IH]; cbn; [tauto|]. destruct (Nat.eqb_spec k k'); [split; [easy|]; intros N; exfalso; apply N; auto|].
  rewrite IH. intuition.
Qed.
Lemma find_In k l a : find_cell k l = Some a -> In a (map snd l).
Proof. induction l as [|[k' b] l IH]; cbn; [easy|]. destruct (k =? k'); [intros [= ->]; auto|auto]. Qed.
Lemma set_new h k v l : find_cell k l = None -> set_item k v (shown_items h l) = shown_items h l ++ [(k, v)].
Proof. induction l as [|[k' a] l IH]; cbn; [auto|]. destruct (k =? k'); [easy|]. intros N. f_equal. now apply IH. Qed.
Lemma shown_eq h h' l : (forall a, In a (map snd l) -> shown_cell h' a = shown_cell h a) -> shown_items h' l = shown_items h l.
Proof. intros E. unfold shown_items. apply map_ext_in. intros [k a] I. cbn. f_equal. apply E. apply in_map_iff. exists (k, a). auto. Qed.
Lemma set_found h h' k v l a : find_cell k l = Some a -> NoDup (map snd l) -> shown_cell h' a = v ->
  (forall b, In b (map snd l) -> b <> a -> shown_cell h' b = shown_cell h b) ->
  shown_items h' l = set_item k v (shown_items h l).
Proof.
  induction l as [|[k' b] l IH]; cbn; [easy|]. intros F N V E. inversion N; subst. destruct (k =? k') eqn:K.
  - injection F as <-. f_equal. apply (shown_eq h h' l). intros y Y. apply E; [auto|]. intros ->. auto.
  - f_equal; [|apply IH; auto]. f_equal. apply E; auto. intros ->. apply find_In in F. auto.
Qed.

(** Elements whose contents are kept show the same. *)
Lemma shown_keep h h' a v : Inv h -> cells h a = Some v -> cells h' a = Some v ->
  (forall t x, slots h t = Some x -> slots h' t = Some x) -> shown_cell h' a = shown_cell h a.
Proof.
  intros D C C' K. unfold shown_cell. rewrite C, C'. destruct v as [| |s]; auto.
  destruct (d_cell _ _ _ D _ _ C (fun z => z)) as [o S]. now rewrite S, (K _ _ S).
Qed.

Record frame (b : nat) (h h' : hp) : Prop := {
  f_var : vars h' = vars h;
  f_no : nobj h <= nobj h'; f_nc : ncell h <= ncell h'; f_ns : nslot h <= nslot h';
  f_obj : forall o c, o < b -> objs h o = Some c -> exists c', objs h' o = Some c' /\ c_arr c' = c_arr c /\ c_cells c' = c_cells c;
  f_cel : forall a v, cells h a = Some v -> cells h' a = Some v;
  f_slo : forall s v, slots h s = Some v -> slots h' s = Some v;
  f_hold : forall p a, hold h [] (Some p) a -> hold h' [] (Some p) a;
  f_rw : forall o, RW h None o -> RW h' None o
}.
Lemma frame_refl b h : frame b h h.
Proof. constructor; eauto. Qed.
Lemma frame_trans b c h1 h2 h3 : b <= c -> frame b h1 h2 -> frame c h2 h3 -> frame b h1 h3.
Proof.
  intros L [A1 A2 A3 A4 A5 A6 A7 A8 A9] [B1 B2 B3 B4 B5 B6 B7 B8 B9]. constructor; try lia; try congruence; eauto.
  intros o x O X. destruct (A5 _ _ O X) as (y & Y & Y1 & Y2). destruct (B5 o y ltac:(lia) Y) as (z & Z & Z1 & Z2). exists z. repeat split; congruence.
Qed.
Lemma frame_weak b c h h' : b <= c -> frame c h h' -> frame b h h'.
Proof. intros L F. apply (frame_trans b c h h h'); auto. apply frame_refl. Qed.
Lemma shown_vars h h' : Inv h -> map (shown_val h') (vars h) = map (shown_val h) (vars h).
Proof. intros D. apply map_ext_in. intros v V. pose proof (d_var _ _ _ D _ V) as Q. destruct v; easy. Qed.
Definition zkeep (h h' : hp) : Prop := forall o, In o (zero h) -> In o (zero h').
Lemma ValOk_frame b h h' v : frame b h h' -> zkeep h h' -> ValOk h v -> ValOk h' v.
Proof.
  intros F Z V. destruct v as [|z|o|s]; cbn in *; auto.
  - rewrite (f_var _ _ _ F). destruct V; auto.
  - destruct V as (o & a & p & S & C & H & R). exists o, a, p. split; [eapply f_slo; eauto|]. split; [eapply f_cel; eauto|]. split; [eapply f_hold; eauto|eapply f_rw; eauto].
Qed.
Lemma shown_frame b h h' v : frame b h h' -> ValOk h v -> shown_val h' v = shown_val h v.
Proof. intros F V. destruct v as [|z|o|s]; cbn in *; auto. destruct V as (o & a & p & S & _). now rewrite S, (f_slo _ _ _ F _ _ S). Qed.

Section Addr.
Variable addr : nat -> nat.

(** *** An item of a literal *)
Lemma push_ok h o k c v : Inv h -> objs h o = Some c -> In o (zero h) -> ValOk h v ->
  (c_arr c = false -> find_cell k (c_cells c) = None) -> shown_val h v <> SO o ->
  exists h' a, push_item addr h o k v = Fine h' /\ Inv h' /\
    (exists c', objs h' o = Some c' /\ c_arr c' = c_arr c /\ c_cells c' = c_cells c ++ [(key_of c k, a)]) /\
    (forall x c0, x <> o -> objs h x = Some c0 -> exists c', objs h' x = Some c' /\ c_arr c' = c_arr c0 /\ c_cells c' = c_cells c0) /\
    (forall x, objs h' x <> None -> objs h x <> None) /\
    shown_cell h' a = shown_val h v /\ cells h a = None /\ nobj h' = nobj h /\ frame o h h' /\
    (forall x, In x (zero h) -> shown_val h v <> SO x -> In x (zero h')) /\ (Full h [] -> Full h' []).
Proof.
  intros D O Z V FN NS. unfold push_item. rewrite O. cbn [need].
  assert ((if c_arr c then None else find_cell k (c_cells c)) = None) as -> by (destruct (c_arr c); auto).
  destruct (add_cell_ok h o c (key_of c k) D O) as (h1 & E1 & D1 & O1 & C1 & S1 & V1 & Z1 & N1 & N2 & N3 & F1).
  { intros A. unfold key_of. now rewrite A. }
  rewrite E1. cbn [obind].
  assert (FR : cells h (ncell h) = None).
  { destruct (cells h (ncell h)) eqn:E; [|auto]. assert (ncell h < ncell h) by (apply (d_bc _ _ _ D); congruence). lia. }
  assert (RE : resolve h1 v = resolve h v) by (unfold resolve; now rewrite S1).
  assert (SV : shown_val h1 v = shown_val h v) by (unfold shown_val; now rewrite S1).
  assert (H1 : forall p a, hold h [] (Some p) a -> hold h1 [] (Some p) a).
  { intros p a [c0 [P0 H]]. unfold hold. rewrite O1. destruct (up_cases (objs h) o (Some (with_cells c (c_cells c ++ [(key_of c k, ncell h)]))) p) as [[E U]|[E U]]; rewrite U.
    - eexists. split; [reflexivity|]. cbn. rewrite map_app, in_app_iff. left. congruence.
    - exists c0. auto. }
  assert (H1o : hold h1 [] (Some o) (ncell h)).
  { unfold hold. rewrite O1, up_same. eexists. split; [reflexivity|]. cbn. rewrite map_app, in_app_iff. right. cbn. auto. }
  assert (CN : forall a w, cells h a = Some w -> a <> ncell h) by (intros a w A ->; congruence).
  assert (C1a : cells h1 (ncell h) = Some CU) by (rewrite C1; apply up_same).
  destruct (resolve_ok h v D V) as [(x & R & SX & NX)|(o' & R & SX & RO)]; rewrite RE, R; cbn [obind].
  - destruct (put_plain_ok h1 (ncell h) CU x D1 C1a NX) as (D2 & _ & F2). exists (put_cell h1 (ncell h) (Some x)), (ncell h).
    assert (CK : forall a w, cells h a = Some w -> cells (put_cell h1 (ncell h) (Some x)) a = Some w).
    { intros a w A. cbn. rewrite up_other by eauto. rewrite C1, up_other by eauto. auto. }
    split; [reflexivity|]. split; [auto|]. split; [|split; [|split; [|split; [|split; [auto|split; [exact N1|split; [|split]]]]]]].
    + cbn [put_cell set_cells objs]. rewrite O1, up_same. eexists. split; [reflexivity|]. split; reflexivity.
    + intros y c0 N Y. cbn [put_cell set_cells objs]. rewrite O1, up_other by auto. eauto.
    + intros y. cbn [put_cell set_cells objs]. rewrite O1. unfold up. destruct (Nat.eqb_spec y o); [congruence|auto].
    + rewrite SX. unfold shown_cell. cbn. rewrite up_same. destruct x; auto. now destruct (NX s).
    + constructor.
      * exact V1.
      * cbn. lia.
      * cbn. lia.
      * cbn. lia.
      * intros y c0 L Y. cbn [put_cell set_cells objs]. rewrite O1, up_other by lia. eauto.
      * exact CK.
      * intros s w W. cbn. now rewrite S1.
      * exact H1.
      * intros y RY. induction RY as [y Y|y Y|p a t y _ IH H C N S].
        -- apply rw_zero. cbn. now rewrite Z1.
        -- apply rw_var. cbn. now rewrite V1.
        -- apply (rw_step _ None p a t); [exact IH|apply H1, H|apply CK, C|easy|cbn; now rewrite S1].
    + intros y Y _. cbn. now rewrite Z1.
    + intros F. apply F2; [easy|auto].
  - destruct (new_slot_ok h1 (ncell h) D1) as (h2 & E2 & D2 & O2 & C2 & S2 & V2 & Z2 & M1 & M2 & M3 & F2). rewrite E2.
    assert (OA : objs h2 o' <> None).
    { rewrite O2, O1. destruct (rw_alive _ _ _ D RO) as [c1 Q]. unfold up. destruct (o' =? o); congruence. }
    assert (SN : slots h2 (nslot h1) = Some (Slot None (ncell h))) by (rewrite S2; apply up_same).
    assert (CN2 : cells h2 (ncell h) = Some CU) by (rewrite C2; auto).
    destruct (attach_new addr h2 (nslot h1) (ncell h) o' CU D2 SN CN2 OA) as (h3 & c1 & E3 & Q3 & D3 & O3 & C3 & S3 & V3 & L1 & L2 & L3 & Z3 & F3).
    unfold attach in E3. rewrite E3. exists h3, (ncell h).
    assert (NSL : forall t w, slots h t = Some w -> t <> nslot h1).
    { intros t w T ->. assert (nslot h1 < nslot h) by (apply (d_bs _ _ _ D); congruence). lia. }
    assert (CK : forall a w, cells h a = Some w -> cells h3 a = Some w).
    { intros a w A. rewrite C3, up_other by eauto. rewrite C2, C1, up_other by eauto. auto. }
    assert (SK : forall t w, slots h t = Some w -> slots h3 t = Some w).
    { intros t w T. rewrite S3, up_other by eauto. rewrite S2, up_other by eauto. rewrite S1. auto. }
    assert (OB : forall x c0, objs h2 x = Some c0 -> exists c', objs h3 x = Some c' /\ c_arr c' = c_arr c0 /\ c_cells c' = c_cells c0).
    { intros x c0 X. rewrite O3. destruct (up_cases (objs h2) o' (Some (Cont (c_arr c1) (c_cells c1) (S (c_n c1)) (c_slots c1 ++ [nslot h1]))) x) as [[E U]|[E U]]; rewrite U; [|eauto].
      eexists. split; [reflexivity|]. subst x. rewrite X in Q3. injection Q3 as ->. auto. }
    assert (HK : forall p a, hold h1 [] (Some p) a -> hold h3 [] (Some p) a).
    { intros p a [c0 [P0 H]]. rewrite <- O2 in P0. destruct (OB _ _ P0) as (c' & Q & _ & E). exists c'. split; auto. now rewrite E. }
    split; [reflexivity|]. split; [auto|]. split; [|split; [|split; [|split; [|split; [auto|split; [congruence|split; [|split]]]]]]].
    + destruct (OB o (with_cells c (c_cells c ++ [(key_of c k, ncell h)]))) as (c' & Q & A & B); [rewrite O2, O1; apply up_same|]. exists c'. auto.
    + intros y c0 N Y. apply OB. rewrite O2, O1, up_other; auto.
    + intros y Y. rewrite O3 in Y. unfold up in Y. destruct (Nat.eqb_spec y o') as [E|N].
      * subst y. destruct (rw_alive _ _ _ D RO) as [c2 Q]. congruence.
      * rewrite O2, O1 in Y. unfold up in Y. destruct (Nat.eqb_spec y o); congruence.
    + rewrite SX. unfold shown_cell. rewrite C3, up_same, S3, up_same. reflexivity.
    + constructor.
      * congruence.
      * lia.
      * lia.
      * lia.
      * intros y c0 L Y. apply OB. rewrite O2, O1, up_other by lia. auto.
      * exact CK.
      * exact SK.
      * intros p a H. apply HK, H1, H.
      * assert (NOo : o <> o') by congruence.
        assert (Zo : In o (zero h3)) by (apply Z3; rewrite Z2, Z1; auto).
        intros y RY. induction RY as [y Y|y Y|p a t y _ IH H C N S].
        -- destruct (Nat.eq_dec y o') as [->|NE]; [|apply rw_zero, Z3; rewrite Z2, Z1; auto].
           apply (rw_step _ None o (ncell h) (nslot h1)); [now apply rw_zero|apply HK, H1o|rewrite C3; apply up_same|easy|rewrite S3; apply up_same].
        -- apply rw_var. congruence.
        -- apply (rw_step _ None p a t); [exact IH|apply HK, H1, H|apply CK, C|easy|apply SK, S].
    + intros y Y N. apply Z3. rewrite Z2, Z1. split; [auto|]. intros ->. now apply N.
    + intros F. apply F3; [easy|]. apply F2, F1, F.
Qed.

(** *** Expressions *)
Definition EvalPost (h : hp) (S : sp) (e : expr) (r : out (hp * val)) : Prop :=
  match r with
  | Fine (h', v) =>
      Inv h' /\ frame (nobj h) h h' /\ zkeep h h' /\ ValOk h' v /\ (forall o, shown_val h' v = SO o -> ~ In o (zero h)) /\
      (exists S', seval S e = Some (S', shown_val h' v) /\ shows h' S') /\ (Full h [] -> Full h' []) /\
      (is_lit e = true -> exists o c, v = VO o /\ nobj h <= o /\ In o (zero h') /\ objs h' o = Some c /\ c_arr c = lit_arr e /\
         (lit_arr e = false -> map fst (c_cells c) = rev (keys_of e))) /\
      (direct e = true -> forall s, v <> VS s)
  | Script => seval S e = None
  | _ => False
  end.

Lemma not_zero_slot h s o a : Inv h -> slots h s = Some (Slot (Some o) a) -> ~ In o (zero h).
Proof.
  intros D S Z. destruct (d_src _ _ _ D _ _ _ S (fun z => z)) as [c [O I]]. apply (d_zero _ _ _ D) in Z. destruct Z as [c0 [O0 N]].
  rewrite O in O0. injection O0 as <-. rewrite (d_n _ _ _ D _ _ O) in N. destruct (c_slots c); [easy|cbn in N; lia].
Qed.
Lemma not_zero_var h o : Inv h -> In (VO o) (vars h) -> ~ In o (zero h).
Proof.
  intros D V Z. apply (d_zero _ _ _ D) in Z. destruct Z as [c0 [O N]]. rewrite (d_n _ _ _ D _ _ O) in N. apply orefs_pos in V. lia.
Qed.

Lemma read_ok h o c k a : Inv h -> RW h None o -> objs h o = Some c -> find_cell k (c_cells c) = Some a ->
  exists v, load_cell h a = Fine v /\ ValOk h v /\ shown_val h v = shown_cell h a /\ (forall q, shown_val h v = SO q -> ~ In q (zero h)).
Proof.
  intros D R O F. assert (H : hold h [] (Some o) a) by (exists c; split; auto; eapply find_In; eauto).
  destruct (d_hold _ _ _ D _ _ H) as [w W]. unfold load_cell, shown_cell. rewrite W. cbn [need]. destruct w as [|z|s].
  - exists VU. cbn. repeat split; easy.
  - exists (VI z). cbn. repeat split; easy.
  - destruct (d_cell _ _ _ D _ _ W (fun z => z)) as [q Q]. exists (VS s). cbn. rewrite Q. split; [auto|]. split; [exists q, a, o; auto|].
    split; [auto|]. intros q' [= <-]. eapply not_zero_slot; eauto.
Qed.

Lemma eval_ok : forall e h S, wf_expr e -> Inv h -> shows h S -> EvalPost h S e (eval addr h e).
Proof.
  induction e as [x|z| |arr|l IHl k e IHe|e IH k|e IH k]; intros h S W D SH; cbn [eval].
  - destruct SH as (SH1 & SH2 & SH3). destruct (nth_error (vars h) x) as [v|] eqn:E; cbn.
    + assert (V : In v (vars h)) by (eapply nth_error_In; eauto).
      assert (nth_error (svars S) x = Some (shown_val h v)) as -> by (rewrite <- SH2; erewrite map_nth_error by eauto; reflexivity).
      pose proof (d_var _ _ _ D _ V) as Q. repeat (split; [solve [auto|apply frame_refl|easy]|]).
      split; [destruct v; cbn; tauto|]. split; [destruct v; cbn; try easy; intros ? [= <-]; now apply not_zero_var|].
      split; [exists S; repeat split; auto|]. split; [auto|]. split; [easy|]. intros _ s ->. exact Q.
    + rewrite <- SH2. apply nth_error_None in E. assert (nth_error (map (shown_val h) (vars h)) x = None) as -> by (apply nth_error_None; now rewrite map_length). auto.
  - cbn. repeat (split; [solve [auto|apply frame_refl|easy]|]). split; [eauto|]. repeat split; easy.
  - cbn. repeat (split; [solve [auto|apply frame_refl|easy]|]). split; [eauto|]. repeat split; easy.
  - destruct (new_obj_ok h arr D) as (h1 & E1 & D1 & O1 & C1 & S1 & V1 & Z1 & N1 & N2 & N3 & F1). rewrite E1. cbn [EvalPost].
    destruct SH as (SH1 & SH2 & SH3).
    assert (OK : forall x c, objs h x = Some c -> objs h1 x = Some c).
    { intros x c X. rewrite O1, up_other; [auto|]. intros ->. assert (nobj h < nobj h) by (apply (d_bo _ _ _ D); congruence). lia. }
    assert (ZK : zkeep h h1) by (intros y Y; rewrite Z1; apply in_app_iff; auto).
    assert (ZN : In (nobj h) (zero h1)) by (rewrite Z1; apply in_app_iff; right; now left).
    split; [auto|]. split; [|split; [auto|split; [left; auto|split]]].
    + constructor; try lia; try congruence; eauto.
      * intros p a [c [P H]]. exists c. auto.
      * intros y RY. induction RY as [y Y|y Y|p a t y _ IH H C N SS]; [apply rw_zero; auto|apply rw_var; congruence|].
        apply (rw_step _ None p a t); auto; try congruence. destruct H as [c [P H]]. exists c. auto.
    + cbn. intros o [= <-] Z. apply (d_zero _ _ _ D) in Z. destruct Z as [c [O _]].
      assert (nobj h < nobj h) by (apply (d_bo _ _ _ D); congruence). lia.
    + split; [|split; [auto|split; [|easy]]].
      * eexists. split; [cbn; rewrite SH1; reflexivity|]. split; [|split].
        -- cbn. lia.
        -- cbn. rewrite V1, <- SH2. apply map_ext. intros v. unfold shown_val. now rewrite S1.
        -- intros o c O. cbn. rewrite O1 in O. rewrite <- SH1. destruct (up_cases (objs h) (nobj h) (Some (Cont arr [] 0 [])) o) as [[E U]|[E U]]; rewrite U in O.
           ++ injection O as <-. subst o. now rewrite up_same.
           ++ rewrite up_other by auto. rewrite (SH3 _ _ O). do 2 f_equal. apply shown_eq. intros a _. unfold shown_cell. now rewrite C1, S1.
      * intros _. exists (nobj h), (Cont arr [] 0 []). rewrite O1, up_same. cbn. repeat split; auto.
  - destruct W as (WL & WK & W1 & W2). specialize (IHl h S W1 D SH). 
    destruct (eval addr h l) as [[h1 v1]| | | |]; cbn [obind EvalPost] in *; try easy; [|cbn; now rewrite IHl].
    destruct IHl as (D1 & FR1 & ZK1 & VO1 & NZ1 & (S1 & SE1 & SH1) & FU1 & LIT & _). destruct (LIT WL) as (o & c & -> & LO & ZO & OO & AR & KE).
    cbn [shown_val] in SE1.
    specialize (IHe h1 S1 W2 D1 SH1). destruct (eval addr h1 e) as [[h2 x]| | | |]; cbn [obind EvalPost] in *; try easy; [|cbn; now rewrite SE1, IHe].
    destruct IHe as (D2 & FR2 & ZK2 & VO2 & NZ2 & (S2 & SE2 & SH2) & FU2 & _ & _).
    assert (LN : o < nobj h1) by (apply (d_bo _ _ _ D1); congruence).
    destruct (f_obj _ _ _ FR2 o c LN OO) as (c2 & O2 & A2 & CC2).
    assert (NS : shown_val h2 x <> SO o) by (intros E; now apply (NZ2 _ E)).
    destruct (push_ok h2 o k c2 x D2 O2 (ZK2 _ ZO) VO2) as (h3 & a & E3 & D3 & (c3 & O3 & A3 & CC3) & OT & ON & SC & CA & NO3 & FR3 & Z3 & F3); auto.
    { intros A. apply find_none. rewrite CC2, KE by congruence. rewrite <- in_rev. apply WK. congruence. }
    rewrite E3. cbn [obind EvalPost].
    assert (FR : frame (nobj h) h h3).
    { apply (frame_trans _ (nobj h) _ h2); [lia| |apply (frame_weak _ o); auto].
      apply (frame_trans _ (nobj h1) _ h1); auto. apply (f_no _ _ _ FR1). }
    assert (NZ : ~ In o (zero h)).
    { intros Z. apply (d_zero _ _ _ D) in Z. destruct Z as [c0 [O0 _]]. assert (o < nobj h) by (apply (d_bo _ _ _ D); congruence). lia. }
    destruct SH2 as (Q1 & Q2 & Q3). cbn [seval shown_val]. rewrite SE1, SE2, (Q3 _ _ O2).
    split; [auto|]. split; [auto|]. split; [|split; [|split; [|split; [|split; [auto|split; [|easy]]]]]].
    + intros y Y. apply Z3; [auto|]. intros E. apply (NZ2 _ E). auto.
    + left. apply Z3; auto.
    + cbn. intros y [= <-]. exact NZ.
    + eexists. split; [reflexivity|]. split; [|split].
      * cbn. congruence.
      * cbn. rewrite (f_var _ _ _ FR3), <- Q2. apply shown_vars, D2.
      * assert (KP : forall y c0 b, objs h2 y = Some c0 -> In b (map snd (c_cells c0)) -> shown_cell h3 b = shown_cell h2 b).
        { intros y c0 b Y B. assert (H : hold h2 [] (Some y) b) by (exists c0; auto). destruct (d_hold _ _ _ D2 _ _ H) as [w Wb].
          apply (shown_keep h2 h3 b w); auto; [apply (f_cel _ _ _ FR3), Wb|apply (f_slo _ _ _ FR3)]. }
        intros y c0 Y. cbn. destruct (Nat.eq_dec y o) as [->|NE].
        -- rewrite up_same. rewrite O3 in Y. injection Y as <-. rewrite A3, CC3. do 2 f_equal.
           unfold shown_items at 3. rewrite map_app. cbn [map fst snd]. fold (shown_items h3 (c_cells c2)). rewrite SC.
           rewrite (shown_eq h2 h3 (c_cells c2)) by eauto. unfold shown_items at 1. rewrite map_length.
           change (if c_arr c2 then length (c_cells c2) else k) with (key_of c2 k). apply set_new.
           apply find_none. unfold key_of. destruct (c_arr c2) eqn:A.
           ++ rewrite (d_keys _ _ _ D2 _ _ O2 A), in_seq. lia.
           ++ rewrite CC2, KE by congruence. rewrite <- in_rev. apply WK. congruence.
        -- rewrite up_other by auto. destruct (objs h2 y) as [c4|] eqn:Y2; [|exfalso; apply (ON y); congruence].
           destruct (OT y c4 NE Y2) as (c5 & Y5 & A5 & B5). assert (c5 = c0) as -> by congruence. rewrite (Q3 _ _ Y2), A5, B5. do 2 f_equal.
           symmetry. apply shown_eq. eauto.
    + intros _. exists o, c3. split; [auto|]. split; [auto|]. split; [apply Z3; auto|]. split; [auto|]. split; [cbn; congruence|].
      cbn. intros A. rewrite CC3, map_app. cbn [map fst]. rewrite CC2, KE by auto. unfold key_of. now rewrite A2, AR, A.
  - cbn [wf_expr] in W. specialize (IH h S W D SH). destruct (eval addr h e) as [[h1 v1]| | | |]; cbn [obind EvalPost] in *; try easy; [|cbn; now rewrite IH].
    destruct IH as (D1 & FR1 & ZK1 & VO1 & NZ1 & (S1 & SE1 & SH1) & FU1 & _).
    destruct (resolve_ok h1 v1 D1 VO1) as [(x & R & SX & NX)|(o & R & SX & RO)]; rewrite R; cbn [obind].
    + cbn. rewrite SE1, SX. now destruct x.
    + destruct (rw_alive _ _ _ D1 RO) as [c O]. rewrite O. cbn [need]. destruct SH1 as (Q1 & Q2 & Q3).
      destruct (c_arr c) eqn:A.
      * cbn. repeat (split; [solve [auto|easy]|]). split; [exists S1; rewrite SE1, SX, (Q3 _ _ O), A; repeat split; auto|]. repeat split; easy.
      * destruct (find_cell k (c_cells c)) as [a|] eqn:F.
        -- destruct (read_ok h1 o c k a D1 RO O F) as (v & L & VV & SV & NZ). rewrite L. cbn [obind EvalPost].
           repeat (split; [solve [auto|easy]|]). split; [intros q E Z; apply (NZ q E); auto|].
           split; [exists S1; cbn; rewrite SE1, SX, (Q3 _ _ O), A, get_find, F, SV; repeat split; auto|]. repeat split; easy.
        -- cbn. repeat (split; [solve [auto|easy]|]).
           split; [exists S1; rewrite SE1, SX, (Q3 _ _ O), A, get_find, F; repeat split; auto|]. repeat split; easy.
  - cbn [wf_expr] in W. specialize (IH h S W D SH). destruct (eval addr h e) as [[h1 v1]| | | |]; cbn [obind EvalPost] in *; try easy; [|cbn; now rewrite IH].
    destruct IH as (D1 & FR1 & ZK1 & VO1 & NZ1 & (S1 & SE1 & SH1) & FU1 & _).
    destruct (resolve_ok h1 v1 D1 VO1) as [(x & R & SX & NX)|(o & R & SX & RO)]; rewrite R; cbn [obind].
    + cbn. rewrite SE1, SX. now destruct x.
    + destruct (rw_alive _ _ _ D1 RO) as [c O]. rewrite O. cbn [need]. destruct SH1 as (Q1 & Q2 & Q3).
      destruct (find_cell k (c_cells c)) as [a|] eqn:F.
      * destruct (read_ok h1 o c k a D1 RO O F) as (v & L & VV & SV & NZ). rewrite L. cbn [obind EvalPost].
        repeat (split; [solve [auto|easy]|]). split; [intros q E Z; apply (NZ q E); auto|].
        split; [exists S1; cbn; rewrite SE1, SX, (Q3 _ _ O), get_find, F, SV; repeat split; auto|]. repeat split; easy.
      * cbn. rewrite SE1, SX, (Q3 _ _ O), get_find, F. auto.
Qed.

End Addr.

(** *** Variables *)
Definition var_ok (h : hp) (v : val) : Prop := match v with VO o => objs h o <> None | VS _ => False | _ => True end.
Lemma set_vars_id h : set_vars h (vars h) = h.
Proof. now destruct h. Qed.

Lemma n_change h vs vs' o c n zl : Inv (set_vars h vs) -> objs h o = Some c -> n = length (c_slots c) + orefs vs' o ->
  (forall x, x <> o -> orefs vs' x = orefs vs x) -> (forall v, In v vs' -> var_ok h v) -> NoDup zl ->
  (forall x, In x zl <-> (x <> o /\ In x (zero h)) \/ (x = o /\ n = 0)) ->
  Inv (set_vars (set_zero (put_obj h o (Some (with_n c n))) zl) vs').
Proof.
  intros D O N OR VO ND ZL. set (h' := set_vars (set_zero (put_obj h o (Some (with_n c n))) zl) vs').
  assert (FO : forall x, objs h' x = up (objs h) o (Some (with_n c n)) x) by reflexivity.
  assert (OC : forall x c', objs h' x = Some c' -> (x = o /\ c' = with_n c n) \/ (x <> o /\ objs h x = Some c')).
  { intros x c' X. rewrite FO in X. unfold up in X. destruct (Nat.eqb_spec x o); [left|right]; split; auto. congruence. }
  assert (OS : forall x c', objs h' x = Some c' -> exists c0, objs h x = Some c0 /\ c_slots c' = c_slots c0 /\ c_arr c' = c_arr c0 /\ c_cells c' = c_cells c0).
  { intros x c' X. destruct (OC _ _ X) as [[-> ->]|[NE X']]; [exists c|exists c']; auto. }
  assert (OS' : forall x c0, objs h x = Some c0 -> exists c', objs h' x = Some c' /\ c_slots c' = c_slots c0 /\ c_cells c' = c_cells c0).
  { intros x c0 X. rewrite FO. destruct (up_cases (objs h) o (Some (with_n c n)) x) as [[E ->]|[E ->]]; [|eauto]. eexists. split; [reflexivity|].
    subst x. assert (c0 = c) as -> by congruence. auto. }
  assert (HO : forall p x, hold h' [] p x <-> hold (set_vars h vs) [] p x).
  { intros [p|] x; [|tauto]. split; intros [c' [X Y]].
    - destruct (OS _ _ X) as (c0 & X0 & _ & _ & E). exists c0. split; [exact X0|congruence].
    - destruct (OS' _ _ X) as (c0 & X0 & _ & E). exists c0. split; [exact X0|congruence]. }
  constructor.
  - intros x c' X. change (vars h') with vs'. destruct (OC _ _ X) as [[-> ->]|[NE X']]; [exact N|]. rewrite OR by auto. apply (d_n _ _ _ D _ _ X').
  - intros x c' X. destruct (OS _ _ X) as (c0 & X0 & E & _). rewrite E. apply (d_nd _ _ _ D _ _ X0).
  - intros x c' t X T. destruct (OS _ _ X) as (c0 & X0 & E & _). rewrite E in T. apply (d_ls _ _ _ D _ _ _ X0 T).
  - intros t x b T NI. destruct (d_src _ _ _ D _ _ _ T NI) as [c0 [X0 I0]]. destruct (OS' _ _ X0) as (c' & X' & E & _). exists c'. split; auto. congruence.
  - intros p x H. apply HO in H. apply (d_hold _ _ _ D _ _ H).
  - intros p q x H1 H2. apply HO in H1, H2. apply (d_disj _ _ _ D _ _ _ H1 H2).
  - constructor.
  - intros x c' X. destruct (OS _ _ X) as (c0 & X0 & _ & _ & E). rewrite E. apply (d_ndc _ _ _ D _ _ X0).
  - intros x c' X. destruct (OS _ _ X) as (c0 & X0 & _ & E0 & E). rewrite E, E0. apply (d_keys _ _ _ D _ _ X0).
  - intros x t X NI. apply (d_cell _ _ _ D _ _ X NI).
  - easy.
  - intros v V. specialize (VO v V). destruct v as [| |x|]; auto. cbn in VO. rewrite FO. unfold up. destruct (x =? o); [easy|auto].
  - exact ND.
  - intros x. change (zero h') with zl. rewrite ZL. split.
    + intros [[NE Z]|[-> Z]].
      * apply (d_zero _ _ _ D x) in Z. rewrite FO, up_other by auto. exact Z.
      * rewrite FO, up_same. eexists. split; [reflexivity|]. exact Z.
    + intros [c' [X Z]]. destruct (OC _ _ X) as [[-> ->]|[NE X']]; [right; auto|left]. split; [auto|]. apply (d_zero _ _ _ D x). exists c'. auto.
  - apply (d_cnd _ _ _ D).
  - intros x. change (cyc h') with (cyc (set_vars h vs)). rewrite (d_cyc _ _ _ D x). split; intros [c0 [X Z]].
    + destruct (OS' _ _ X) as (c' & X' & E & _). exists c'. split; auto. congruence.
    + destruct (OS _ _ X) as (c' & X' & E & _). exists c'. split; [exact X'|]. congruence.
  - intros x X. apply (d_bo _ _ _ D). destruct (objs h' x) as [c'|] eqn:E; [|easy]. destruct (OS _ _ E) as (c0 & Y & _). cbn. congruence.
  - apply (d_bc _ _ _ D).
  - apply (d_bs _ _ _ D).
  - intros x X. destruct (d_all _ _ _ D _ X) as [p H]. exists p. now apply HO.
Qed.

(** The same containers, elements and slots; only counts differ. *)
Record same (h h' : hp) : Prop := {
  m_obj : forall o c, objs h o = Some c -> exists n, objs h' o = Some (with_n c n);
  m_obj' : forall o, objs h' o <> None -> objs h o <> None;
  m_cel : cells h' = cells h; m_slo : slots h' = slots h;
  m_no : nobj h' = nobj h; m_nc : ncell h' = ncell h; m_ns : nslot h' = nslot h
}.
Lemma same_refl h : same h h.
Proof. constructor; auto. intros o [a b n l] O. exists n. auto. Qed.
Lemma same_trans h1 h2 h3 : same h1 h2 -> same h2 h3 -> same h1 h3.
Proof.
  intros [A1 A2 A3 A4 A5 A6 A7] [B1 B2 B3 B4 B5 B6 B7]. constructor; try congruence; eauto.
  intros o c O. destruct (A1 _ _ O) as [n N]. destruct (B1 _ _ N) as [m M]. exists m. exact M.
Qed.
Lemma same_Full h h' l : same h h' -> Full h l -> Full h' l.
Proof.
  intros M F o c s a O I S N. destruct (objs h o) as [c0|] eqn:O0; [|exfalso; apply (m_obj' _ _ M o); congruence].
  destruct (m_obj _ _ M _ _ O0) as [n E]. rewrite O in E. injection E as ->. rewrite (m_cel _ _ M). eapply F; eauto. now rewrite <- (m_slo _ _ M).
Qed.
Lemma same_vars h vs : same h (set_vars h vs).
Proof. constructor; auto. intros o [a b n l] O. exists n. auto. Qed.

Definition orefs1 (v : val) (o : nat) : nat := match v with VO o' => if o' =? o then 1 else 0 | _ => 0 end.
Lemma orefs_cons v l o : orefs (v :: l) o = orefs1 v o + orefs l o.
Proof. unfold orefs, orefs1. cbn. destruct v as [| |o'|]; auto. destruct (o' =? o); auto. Qed.
Lemma orefs_app l m o : orefs (l ++ m) o = orefs l o + orefs m o.
Proof. unfold orefs. now rewrite filter_app, app_length. Qed.

(** Another list of variables with the same references. *)
Lemma vars_change h vs vs' : Inv (set_vars h vs) -> (forall x, orefs vs' x = orefs vs x) -> (forall v, In v vs' -> var_ok h v) -> Inv (set_vars h vs').
Proof.
  intros D OR VO. destruct D. constructor; try assumption.
  - intros x c X. change (vars (set_vars h vs')) with vs'. rewrite OR. apply (d_n x c X).
Qed.

Lemma share_ok h vs o : Inv (set_vars h vs) -> objs h o <> None ->
  exists h', share h o = Fine h' /\ Inv (set_vars h' (VO o :: vs)) /\ same h h' /\ vars h' = vars h.
Proof.
  intros D OA. destruct (objs h o) as [c|] eqn:O; [|easy]. unfold share. rewrite O. cbn [need].
  pose proof (d_n _ _ _ D o c O) as N. change (vars (set_vars h vs)) with vs in N.
  assert (OR : orefs (VO o :: vs) o = S (orefs vs o)) by (rewrite orefs_cons; cbn; now rewrite Nat.eqb_refl).
  assert (OR' : forall x, x <> o -> orefs (VO o :: vs) x = orefs vs x).
  { intros x X. rewrite orefs_cons. unfold orefs1. destruct (Nat.eqb_spec o x); [congruence|auto]. }
  assert (VK : forall v, In v (VO o :: vs) -> var_ok h v).
  { intros v [<-|V]; [cbn; congruence|]. apply (d_var _ _ _ D v V). }
  assert (SM : forall n zl, same h (set_zero (put_obj h o (Some (with_n c n))) zl)).
  { intros n zl. constructor; auto.
    - intros x cx X. cbn. unfold up. destruct (Nat.eqb_spec x o); [|destruct cx as [a b m l]; exists m; exact X].
      subst x. exists n. congruence.
    - intros x X. cbn in X. unfold up in X. destruct (Nat.eqb_spec x o); congruence. }
  destruct (Nat.eqb_spec (c_n c) 0) as [Z|Z].
  - assert (In o (zero h)) as ZI by (apply (d_zero _ _ _ D o); exists c; auto).
    rewrite (proj2 (mem_In o (zero h)) ZI). eexists. split; [reflexivity|]. split; [|split; [apply SM|reflexivity]].
    apply n_change with vs; auto.
    + lia.
    + apply del_NoDup. apply (d_znd _ _ _ D).
    + intros x. rewrite del_In. split; [tauto|]. intros [[? ?]|[_ E]]; [tauto|discriminate].
  - exists (set_zero (put_obj h o (Some (with_n c (S (c_n c))))) (zero h)). split; [reflexivity|]. split; [|split; [apply SM|reflexivity]].
    apply n_change with vs; auto.
    + lia.
    + apply (d_znd _ _ _ D).
    + intros x. split; [|intros [[? ?]|[_ E]]; [tauto|discriminate]]. intros X. left. split; [|auto]. intros ->.
      apply (d_zero _ _ _ D o) in X. destruct X as [c0 [X Y]]. cbn in X. congruence.
Qed.

Lemma unref_block_ok h vs o : Inv (set_vars h (VO o :: vs)) ->
  exists h', unref_block h o = Fine h' /\ Inv (set_vars h' vs) /\ same h h' /\ vars h' = vars h.
Proof.
  intros D. pose proof (d_var _ _ _ D (VO o) (or_introl eq_refl)) as OA. cbn in OA.
  destruct (objs h o) as [c|] eqn:O; [|easy]. unfold unref_block, unref_count. rewrite O. cbn [need].
  pose proof (d_n _ _ _ D o c O) as N. change (vars (set_vars h (VO o :: vs))) with (VO o :: vs) in N.
  assert (OR : orefs (VO o :: vs) o = S (orefs vs o)) by (rewrite orefs_cons; cbn; now rewrite Nat.eqb_refl).
  assert (OR' : forall x, x <> o -> orefs vs x = orefs (VO o :: vs) x).
  { intros x X. rewrite orefs_cons. unfold orefs1. destruct (Nat.eqb_spec o x); [congruence|auto]. }
  assert (VK : forall v, In v vs -> var_ok h v) by (intros v V; apply (d_var _ _ _ D v); now right).
  assert (SM : forall n zl, same h (set_zero (put_obj h o (Some (with_n c n))) zl)).
  { intros n zl. constructor; auto.
    - intros x cx X. cbn. unfold up. destruct (Nat.eqb_spec x o); [|destruct cx as [a b m l]; exists m; exact X].
      subst x. exists n. congruence.
    - intros x X. cbn in X. unfold up in X. destruct (Nat.eqb_spec x o); congruence. }
  assert (NZ : ~ In o (zero h)).
  { intros Z. apply (d_zero _ _ _ D o) in Z. destruct Z as [c0 [X Y]]. cbn in X. rewrite O in X. injection X as <-. lia. }
  destruct (c_n c) as [|n] eqn:EN; [lia|]. cbn [obind]. destruct (Nat.eqb_spec n 0) as [Z|Z].
  - exists (set_zero (put_obj h o (Some (with_n c n))) (zero h ++ [o])). split; [reflexivity|]. split; [|split; [apply SM|reflexivity]].
    apply n_change with (VO o :: vs); auto.
    + lia.
    + apply NoDup_app'; [apply (d_znd _ _ _ D)|repeat constructor; easy|]. intros y Y [<-|[]]. auto.
    + intros x. rewrite in_app_iff. cbn. split.
      * intros [X|[<-|[]]]; [left|right]; auto. split; [congruence|auto].
      * intros [[? ?]|[-> _]]; auto.
  - exists (set_zero (put_obj h o (Some (with_n c n))) (zero h)). split; [reflexivity|]. split; [|split; [apply SM|reflexivity]].
    apply n_change with (VO o :: vs); auto.
    + lia.
    + apply (d_znd _ _ _ D).
    + intros x. split; [|intros [[? ?]|[_ E]]; [tauto|lia]]. intros X. left. split; [congruence|auto].
Qed.

Lemma put_var_split l x old : nth_error l x = Some old -> exists pre post, l = pre ++ old :: post /\ forall v, put_var l x v = pre ++ v :: post.
Proof.
  revert x. induction l as [|y l IH]; intros [|x] E; cbn in E; try easy.
  - injection E as ->. exists [], l. auto.
  - destruct (IH x E) as (pre & post & E1 & E2). exists (y :: pre), post. cbn. split; [now rewrite E1 at 1|]. intros v. now rewrite E2.
Qed.
Lemma put_var_shown h l x v : sput_var (map (shown_val h) l) x (shown_val h v) = map (shown_val h) (put_var l x v).
Proof. revert x. induction l as [|y l IH]; intros [|x]; cbn; auto. f_equal. apply IH. Qed.

Lemma same_shown h h' v : same h h' -> shown_val h' v = shown_val h v.
Proof. intros M. unfold shown_val. now rewrite (m_slo _ _ M). Qed.
Lemma same_shows h h' S : same h h' -> shows h S -> shows h' (Sp (sobj S) (map (shown_val h') (vars h')) (snext S)).
Proof.
  intros M (Q1 & Q2 & Q3). split; [rewrite (m_no _ _ M); auto|]. split; [reflexivity|].
  intros o c O. destruct (objs h o) as [c0|] eqn:O0; [|exfalso; apply (m_obj' _ _ M o); congruence].
  destruct (m_obj _ _ M _ _ O0) as [n E]. rewrite O in E. injection E as ->. cbn [sobj]. rewrite (Q3 _ _ O0). cbn. do 2 f_equal. symmetry. apply shown_eq.
  intros a _. unfold shown_cell. now rewrite (m_cel _ _ M), (m_slo _ _ M).
Qed.

Definition RunPost (h : hp) (r : out hp) (S : option sp) (calm : Prop) : Prop :=
  match r with
  | Fine h' => Inv h' /\ (exists S', S = Some S' /\ shows h' S') /\ (calm -> Full h [] -> Full h' [])
  | Script => S = None
  | _ => False
  end.
(** ... unless the run is not safe, then it may touch freed memory. *)
Definition RunPostX (h : hp) (r : out hp) (S : option sp) (calm safe : Prop) : Prop :=
  match r with Crash => ~ safe | _ => RunPost h r S calm end.
Lemma RunPost_X h r S (calm calm' safe : Prop) : RunPost h r S calm -> (calm' -> calm) -> RunPostX h r S calm' safe.
Proof. destruct r; cbn; try easy. intros (A & B & C) D. auto. Qed.
Lemma RunPostX_weak h r S (calm calm' safe safe' : Prop) : RunPostX h r S calm safe -> (calm' -> calm) -> (safe' -> safe) -> RunPostX h r S calm' safe'.
Proof. destruct r; cbn; try easy; [intros (A & B & C) D; auto|auto]. Qed.

Lemma drop_var_ok h vs old : Inv (set_vars h (old :: vs)) -> vars h = vs -> var_ok h old ->
  exists h', drop_var h old = Fine h' /\ Inv h' /\ same h h' /\ vars h' = vs.
Proof.
  intros D V OK. destruct old as [|z|o|s]; cbn [drop_var]; try easy.
  - exists h. split; [auto|]. split; [|split; [apply same_refl|auto]]. rewrite <- (set_vars_id h), V. eapply vars_change; [exact D|intros x; now rewrite orefs_cons|].
    intros v I. apply (d_var _ _ _ D v). now right.
  - exists h. split; [auto|]. split; [|split; [apply same_refl|auto]]. rewrite <- (set_vars_id h), V. eapply vars_change; [exact D|intros x; now rewrite orefs_cons|].
    intros v I. apply (d_var _ _ _ D v). now right.
  - destruct (unref_block_ok h vs o D) as (h' & E & D' & M & V'). exists h'. split; [auto|]. split; [|split; [auto|congruence]].
    rewrite <- (set_vars_id h'), V', V. exact D'.
Qed.

Lemma store_var_ok h S x v : Inv h -> shows h S -> ValOk h v ->
  RunPost h (store_var h x v) (if x <? length (svars S) then Some (Sp (sobj S) (sput_var (svars S) x (shown_val h v)) (snext S)) else None) True.
Proof.
  intros D SH VV. assert (L : length (svars S) = length (vars h)) by (destruct SH as (_ & Q & _); now rewrite <- Q, map_length).
  unfold store_var. destruct (nth_error (vars h) x) as [old|] eqn:E.
  2: { apply nth_error_None in E. cbn. destruct (Nat.ltb_spec x (length (svars S))); [lia|auto]. }
  assert (LT : x < length (svars S)) by (rewrite L; apply nth_error_Some; congruence). destruct (Nat.ltb_spec x (length (svars S))); [|lia].
  assert (OLD : var_ok h old) by (apply (d_var _ _ _ D), nth_error_In with x; auto).
  assert (D0 : Inv (set_vars h (vars h))) by (now rewrite set_vars_id).
  assert (POST : forall h1 w, same h h1 -> vars h1 = put_var (vars h) x w -> Inv h1 -> shown_val h w = shown_val h v ->
     RunPost h (Fine h1) (Some (Sp (sobj S) (sput_var (svars S) x (shown_val h v)) (snext S))) True).
  { intros h1 w M V1 D1 SW. split; [auto|]. split; [|intros _; now apply same_Full]. eexists. split; [reflexivity|].
    pose proof (same_shows _ _ _ M SH) as SH1. destruct SH as (_ & Q2 & _).
    assert (E1 : map (shown_val h1) (vars h1) = sput_var (svars S) x (shown_val h v)).
    { rewrite V1, <- Q2, <- SW, put_var_shown. apply map_ext. intros. now apply same_shown. }
    now rewrite E1 in SH1. }
  destruct (put_var_split (vars h) x old E) as (pre & post & EV & PV).
  assert (VK : forall u, In u (pre ++ old :: post) -> var_ok h u) by (intros u U; rewrite <- EV in U; apply (d_var _ _ _ D u U)).
  assert (VK' : forall w, var_ok h w -> forall u, In u (old :: pre ++ w :: post) -> var_ok h u).
  { intros w W u [<-|U]; [auto|]. apply in_app_iff in U. destruct U as [U|[<-|U]]; auto; apply VK; apply in_app_iff; cbn; auto. }
  assert (ORE : forall w u, orefs (old :: pre ++ w :: post) u = orefs1 w u + orefs (pre ++ old :: post) u).
  { intros w u. rewrite orefs_cons, !orefs_app, !orefs_cons. lia. }
  rewrite EV in D0. destruct (resolve_ok h v D VV) as [(y & R & SY & NY)|(o & R & SY & RO)]; rewrite R; cbn [obind].
  - set (w := match y with CI z => VI z | _ => VU end).
    assert (WP : forall u, orefs1 w u = 0) by (intros u; now destruct y).
    assert (WO : var_ok h w) by now destruct y.
    destruct (drop_var_ok (set_vars h (put_var (vars h) x w)) (put_var (vars h) x w) old) as (h1 & E1 & D1 & M1 & V1).
    + change (set_vars (set_vars h (put_var (vars h) x w)) (old :: put_var (vars h) x w)) with (set_vars h (old :: put_var (vars h) x w)).
      rewrite PV. eapply vars_change; [exact D0| |now apply VK']. intros u. now rewrite ORE, WP.
    + reflexivity.
    + exact OLD.
    + rewrite E1. apply (POST h1 w); auto.
      * eapply same_trans; [apply same_vars|exact M1].
      * rewrite SY. unfold w. destruct y; auto.
  - destruct (match old with VO o' => o' =? o | _ => false end) eqn:EO.
    + destruct old as [| |o'|]; try easy. apply Nat.eqb_eq in EO. subst o'. apply (POST h (VO o)); auto; [apply same_refl|]. now rewrite PV.
    + destruct (rw_alive _ _ _ D RO) as [c O].
      destruct (share_ok (set_vars h (put_var (vars h) x (VO o))) (pre ++ old :: post) o) as (h1 & E1 & D1 & M1 & V1); [exact D0|cbn; congruence|].
      rewrite E1. cbn [obind].
      assert (OL1 : forall u, var_ok h u -> var_ok h1 u).
      { intros u U. destruct u as [| |q|]; auto. cbn in *. destruct (objs h q) as [cq|] eqn:Q; [|easy].
        destruct (m_obj _ _ M1 q cq Q) as [n Qn]. congruence. }
      destruct (drop_var_ok h1 (put_var (vars h) x (VO o)) old) as (h2 & E2 & D2 & M2 & V2).
      * rewrite PV. eapply vars_change; [exact D1|intros u; now rewrite ORE, orefs_cons|]. intros u U. apply OL1. apply (VK' (VO o)); [cbn; congruence|auto].
      * exact V1.
      * auto.
      * rewrite E2. apply (POST h2 (VO o)); auto. eapply same_trans; [apply same_vars|]. eapply same_trans; eauto.
Qed.

(** *** Elements *)
Lemma find_inj k i l a : NoDup (map snd l) -> find_cell k l = Some a -> find_cell i l = Some a -> k = i.
Proof.
  induction l as [|[k' b] l IH]; cbn; [easy|]. intros ND K I. inversion ND; subst.
  destruct (Nat.eqb_spec k k'), (Nat.eqb_spec i k'); subst; auto.
  - injection K as ->. apply find_In in I. easy.
  - injection I as ->. apply find_In in K. easy.
Qed.
Lemma leads_rw h p k o c a s : Inv h -> objs h p = Some c -> find_cell k (c_cells c) = Some a -> cells h a = Some (CS s) ->
  leads h p k o -> RW h (Some s) o.
Proof.
  intros D O F C L. induction L as [o V|q i o cq L IH NE Q G]; [now apply rw_var|].
  rewrite get_find in G. destruct (find_cell i (c_cells cq)) as [b|] eqn:FB; [|easy]. injection G as G.
  unfold shown_cell in G. destruct (cells h b) as [[| |t]|] eqn:CB; try easy. destruct (d_cell _ _ _ D _ _ CB (fun z => z)) as [o1 T]. rewrite T in G. injection G as ->.
  assert (HB : hold h [] (Some q) b) by (exists cq; split; [auto|eapply find_In; eauto]).
  apply (rw_step _ _ q b t); auto. intros E. injection E as ->. destruct (d_cell _ _ _ D _ _ C (fun z => z)) as [o2 T2]. assert (b = a) as -> by congruence.
  assert (HA : hold h [] (Some p) a) by (exists c; split; [auto|eapply find_In; eauto]).
  pose proof (d_disj _ _ _ D _ _ _ HB HA) as E. injection E as ->. assert (cq = c) as -> by congruence.
  apply NE. f_equal. eapply find_inj; eauto. apply (d_ndc _ _ _ D _ _ O).
Qed.
Lemma shows_put h h' S o c k a v : Inv h -> shows h S -> Inv h' -> objs h o = Some c -> find_cell k (c_cells c) = Some a ->
  (forall x c', objs h' x = Some c' -> exists c0, objs h x = Some c0 /\ c_arr c' = c_arr c0 /\ c_cells c' = c_cells c0) ->
  vars h' = vars h -> nobj h' = nobj h -> (forall w, cells h' a = Some w -> shown_cell h' a = v) ->
  (forall b w, b <> a -> cells h' b = Some w -> cells h b = Some w) ->
  (forall b s, b <> a -> cells h' b = Some (CS s) -> slots h' s = slots h s) ->
  shows h' (sput S o (c_arr c) (set_item k v (shown_items h (c_cells c)))).
Proof.
  intros D (Q1 & Q2 & Q3) D' O F OB EV EN SA CB SB. split; [cbn; congruence|]. split.
  - cbn. rewrite EV, <- Q2. apply shown_vars, D.
  - intros x c' X. cbn. destruct (OB _ _ X) as (c0 & X0 & A0 & C0).
    assert (SE : forall b, In b (map snd (c_cells c')) -> b <> a -> shown_cell h' b = shown_cell h b).
    { intros b B N. assert (H : hold h' [] (Some x) b) by (exists c'; auto). destruct (d_hold _ _ _ D' _ _ H) as [w W].
      unfold shown_cell. rewrite W, (CB b w N W). destruct w as [| |s]; auto. now rewrite (SB b s N W). }
    destruct (Nat.eq_dec x o) as [->|N].
    + rewrite up_same. assert (c0 = c) as -> by congruence. rewrite A0. do 2 f_equal. rewrite C0. symmetry.
      assert (H : hold h' [] (Some o) a) by (exists c'; split; [auto|rewrite C0; eapply find_In; eauto]). destruct (d_hold _ _ _ D' _ _ H) as [w W].
      eapply set_found; eauto; [apply (d_ndc _ _ _ D _ _ O)|]. rewrite <- C0. exact SE.
    + rewrite up_other by auto. rewrite (Q3 _ _ X0), A0, C0. do 2 f_equal. symmetry. apply shown_eq. intros b B. apply SE; [now rewrite C0|].
      intros ->. assert (E : Some x = Some o); [|congruence]. apply (d_disj _ _ _ D _ _ a); [exists c0|exists c]; split; auto. eapply find_In; eauto.
Qed.
Lemma shows_ext h S S' : (forall o, sobj S' o = sobj S o) -> svars S' = svars S -> snext S' = snext S -> shows h S -> shows h S'.
Proof. intros E1 E2 E3 (Q1 & Q2 & Q3). split; [congruence|]. split; [congruence|]. intros o c O. rewrite E1. auto. Qed.

Lemma no_cell_after h a x s b o : Inv h -> slots h s = Some (Slot (Some o) a) -> (forall t, x <> CS t) -> cells (put_cell h a (Some x)) b <> Some (CS s).
Proof.
  intros D S N C. cbn in C. destruct (up_cases (cells h) a (Some x) b) as [[E U]|[E U]]; rewrite U in C.
  - injection C as C. now apply N in C.
  - destruct (d_cell _ _ _ D _ _ C (fun z => z)) as [q Q]. congruence.
Qed.

(** A plain value over a container. *)
Lemma store_plain_over h S o c k a s x : Inv h -> shows h S -> objs h o = Some c -> find_cell k (c_cells c) = Some a ->
  cells h a = Some (CS s) -> (forall t, x <> CS t) ->
  exists h', delete_slot (put_cell h a (Some x)) s = Fine h' /\ Inv h' /\
    shows h' (sput S o (c_arr c) (set_item k (plain x) (shown_items h (c_cells c)))) /\ (Full h [] -> Full h' []).
Proof.
  intros D SH O F C NX. destruct (d_cell _ _ _ D _ _ C (fun z => z)) as [q Q].
  destruct (put_plain_ok h a (CS s) x D C NX) as (D1 & F1 & _).
  destruct (delete_slot_ok (fun _ => False) (put_cell h a (Some x)) s q a D1) as (h' & E & D' & _ & SU & F2); auto.
  - easy.
  - intros b. eapply no_cell_after; eauto.
  - exists h'. split; [auto|]. split; [auto|]. split; [|intros FF; apply F2, (F1 s); auto].
    eapply shows_put; eauto.
    + intros y c' Y. apply (s_obj _ _ SU _ _ Y).
    + apply (s_var _ _ SU).
    + apply (s_no _ _ SU).
    + intros w W. unfold shown_cell. rewrite W. apply (s_cel _ _ SU) in W. cbn in W. rewrite up_same in W. injection W as <-.
      destruct x as [| |t]; auto. now destruct (NX t).
    + intros b w N W. apply (s_cel _ _ SU) in W. cbn in W. now rewrite up_other in W.
    + intros b t N W. destruct (d_cell _ _ _ D' _ _ W (fun z => z)) as [p P]. rewrite P. symmetry. apply (s_slo _ _ SU _ _ P).
Qed.

(** A slot that refers to nothing is dropped. *)
Lemma drop_new h s a : Inv h -> slots h s = Some (Slot None a) -> exists h', delete_slot h s = Fine h' /\ h' = put_slot h s None /\ Inv h' /\ (Full h [] -> Full h' []).
Proof.
  intros D S. unfold delete_slot, unlink. rewrite S. cbn [need s_src obind]. rewrite drain_nil. cbn [obind]. eexists. split; [reflexivity|]. split; [reflexivity|].
  assert (D1 : DInv h [] [s]).
  { destruct D. constructor; auto.
    - intros x c' t X T. destruct (d_ls _ _ _ X T) as [_ [b B]]. split; [|eauto]. intros [->|[]]. congruence.
    - intros t x b T _. apply (d_src t x b T). easy. }
  destruct (kill_slot h [] [] s (fun _ => False) D1 (fun z => z)) as (D2 & _ & _ & F); [| |auto].
  - intros x C. destruct (d_cell _ _ _ D _ _ C (fun z => z)) as [q Q]. congruence.
  - easy.
Qed.

Section Addr2.
Variable addr : nat -> nat.

(** Storing through a new slot. *)
Lemma store_new h S o c k a old v : Inv h -> shows h S -> objs h o = Some c -> find_cell k (c_cells c) = Some a -> cells h a = Some old ->
  (exists x, resolve h v = Fine (TPlain x) /\ shown_val h v = plain x /\ (forall s, x <> CS s)) \/
  (exists o', resolve h v = Fine (TCont o') /\ shown_val h v = SO o' /\ objs h o' <> None) ->
  RunPost h (let '(h3, s) := new_slot h a in store addr h3 s v)
    (Some (sput S o (c_arr c) (set_item k (shown_val h v) (shown_items h (c_cells c)))))
    (forall s o', old = CS s -> shown_val h v <> SO o').
Proof.
  intros D SH O F C RV. destruct (new_slot_ok h a D) as (h1 & E1 & D1 & O1 & C1 & S1 & V1 & Z1 & N1 & N2 & N3 & F1). rewrite E1.
  assert (SN : slots h1 (nslot h) = Some (Slot None a)) by (rewrite S1; apply up_same).
  assert (NN : forall t w, slots h t = Some w -> t <> nslot h).
  { intros t w T ->. assert (nslot h < nslot h) by (apply (d_bs _ _ _ D); congruence). lia. }
  assert (SK : forall t w, slots h t = Some w -> slots h1 t = Some w) by (intros t w T; rewrite S1, up_other; eauto).
  unfold store. rewrite SN. cbn [need s_cell s_src]. rewrite C1, C. cbn [need].
  assert (SH1 : shows h1 S).
  { destruct SH as (Q1 & Q2 & Q3). split; [congruence|]. split; [rewrite V1, <- Q2; apply shown_vars, D|]. intros x cx X. rewrite O1 in X. rewrite (Q3 _ _ X).
    do 2 f_equal. symmetry. apply shown_eq. intros b B. destruct (d_hold _ _ _ D (Some x) b) as [w W]; [exists cx; auto|].
    apply (shown_keep h h1 b w); auto. now rewrite C1. }
  assert (IT : forall l, (forall b, In b (map snd l) -> cells h b <> None) -> shown_items h1 l = shown_items h l).
  { intros l L. apply shown_eq. intros b B. destruct (cells h b) as [w|] eqn:W; [|now apply L in W]. apply (shown_keep h h1 b w); auto. now rewrite C1. }
  assert (ITC : shown_items h1 (c_cells c) = shown_items h (c_cells c)).
  { apply IT. intros b B. destruct (d_hold _ _ _ D (Some o) b) as [w W]; [exists c; auto|congruence]. }
  assert (RE : resolve h1 v = resolve h v).
  { unfold resolve. destruct v as [| | |s]; auto. destruct RV as [(x & R & _)|(x & R & _)]; cbn in R; destruct (slots h s) eqn:SS; cbn in R; try easy; now rewrite (SK _ _ SS). }
  rewrite RE. destruct RV as [(x & R & SX & NX)|(o' & R & SX & OA)]; rewrite R, SX; cbn [obind].
  - assert (C1' : cells h1 a = Some old) by (rewrite C1; auto).
    assert (PL : (forall s, old <> CS s) -> RunPost h (delete_slot (put_cell h1 a (Some x)) (nslot h))
       (Some (sput S o (c_arr c) (set_item k (plain x) (shown_items h (c_cells c))))) (forall s o', old = CS s -> plain x <> SO o')).
    { intros NO. destruct (put_plain_ok h1 a old x D1 C1' NX) as (D2 & _ & F2).
      destruct (drop_new (put_cell h1 a (Some x)) (nslot h) a D2 SN) as (h3 & E3 & EQ & D3 & F3). rewrite E3. split; [auto|]. split; [|intros _ FF; apply F3, F2; auto].
      eexists. split; [reflexivity|]. apply (shows_put h h3 S o c k a (plain x)); auto; subst h3.
      - intros y c' Y. cbn in Y. rewrite O1 in Y. eauto.
      - exact V1.
      - exact N1.
      - intros w W. cbn in W. rewrite up_same in W. unfold shown_cell. cbn. rewrite up_same. destruct x as [| |t]; auto. now destruct (NX t).
      - intros b w N W. cbn in W. rewrite up_other in W by auto. congruence.
      - intros b s N W. cbn in W |- *. rewrite up_other in W by auto. rewrite C1 in W. destruct (d_cell _ _ _ D _ _ W (fun z => z)) as [q Q].
        rewrite up_other by eauto. rewrite S1, up_other by eauto. auto. }
    destruct old as [|z|s]; [apply PL; easy|apply PL; easy|]. clear PL.
    destruct (store_plain_over h1 S o c k a s x D1 SH1) as (h3 & E3 & D3 & SH3 & F3); auto; [congruence|].
    rewrite E3. split; [auto|]. split; [|intros _ FF; apply F3, F1, FF]. eexists. split; [reflexivity|]. now rewrite ITC in SH3.
  - change (let* h0 := assign_slot addr h1 (nslot h) o' in share h0 o') with (attach addr h1 (nslot h) o').
    destruct (attach_new addr h1 (nslot h) a o' old D1 SN) as (h3 & c1 & E3 & Q3 & D3 & O3 & C3 & S3 & V3 & L1 & L2 & L3 & Z3 & F3); [congruence|congruence|].
    rewrite E3. split; [auto|]. split.
    + eexists. split; [reflexivity|]. apply (shows_put h h3 S o c k a (SO o')); auto; try congruence.
      * intros y c' Y. rewrite O3 in Y. destruct (up_cases (objs h1) o' (Some (Cont (c_arr c1) (c_cells c1) (Datatypes.S (c_n c1)) (c_slots c1 ++ [nslot h]))) y) as [[E U]|[E U]]; rewrite U in Y.
        -- injection Y as <-. subst y. rewrite O1 in Q3. eauto.
        -- rewrite O1 in Y. eauto.
      * intros w W. unfold shown_cell. now rewrite C3, up_same, S3, up_same.
      * intros b w N W. rewrite C3, up_other in W by auto. congruence.
      * intros b s N W. rewrite C3, up_other in W by auto. rewrite C1 in W. destruct (d_cell _ _ _ D _ _ W (fun z => z)) as [q Q].
        rewrite S3, up_other by eauto. rewrite S1, up_other by eauto. auto.
    + intros CA FF. apply F3; [|auto]. intros t ->. now apply (CA t o').
Qed.

(** Storing through the slot the element holds already. *)
Lemma store_old h S o c k a s v : Inv h -> shows h S -> objs h o = Some c -> find_cell k (c_cells c) = Some a -> cells h a = Some (CS s) ->
  ValOk h v -> RW h None o ->
  RunPostX h (store addr h s v) (Some (sput S o (c_arr c) (set_item k (shown_val h v) (shown_items h (c_cells c))))) True
    (forall o', shown_val h v = SO o' -> RW h (Some s) o').
Proof.
  intros D SH O F C VV RO. destruct (d_cell _ _ _ D _ _ C (fun z => z)) as [q Q].
  unfold store. rewrite Q. cbn [need s_cell s_src]. rewrite C. cbn [need].
  assert (HA : hold h [] (Some o) a) by (exists c; split; [auto|eapply find_In; eauto]).
  destruct (resolve_ok h v D VV) as [(x & R & SX & NX)|(o' & R & SX & RO')]; rewrite R, SX; cbn [obind].
  - destruct (store_plain_over h S o c k a s x D SH O F C NX) as (h3 & E3 & D3 & SH3 & F3). rewrite E3. split; [auto|]. split; [eauto|auto].
  - destruct (Nat.eqb_spec q o') as [->|NE].
    + split; [auto|]. split; [|auto]. eexists. split; [reflexivity|]. apply (shows_put h h S o c k a (SO o')); auto; [eauto|].
      intros w W. unfold shown_cell. now rewrite C, Q.
    + change (let* h0 := assign_slot addr h s o' in share h0 o') with (attach addr h s o').
      assert (PD : RW h (Some s) o) by (eapply rw_owner; eauto).
      destruct (attach_any addr (RW h (Some s)) h s a q o' D (rw_prot _ _ D) Q C NE (ex_intro _ o (conj PD HA)))
        as [[E3 NR]|(h2 & h3 & c1 & E3 & SU & D2 & Q2 & PR2 & D3 & O3 & C3 & S3 & V3 & L1 & L2 & L3 & F3)].
      { intros y t Py Y T. destruct (rw_sup _ _ _ _ D Py Y) as [Z|[V|(s' & b & p & N & I & CB & Rp & H)]]; auto. right; right.
        exists s', b, p. split; [congruence|auto]. }
      { rewrite E3. cbn. intros G. apply NR, G. reflexivity. }
      rewrite E3. split; [auto|]. split; [|auto].
      eexists. split; [reflexivity|]. apply (shows_put h h3 S o c k a (SO o')); auto; try congruence.
      * intros y c' Y. rewrite O3 in Y. destruct (up_cases (objs h2) o' (Some (Cont (c_arr c1) (c_cells c1) (Datatypes.S (c_n c1)) (c_slots c1 ++ [s]))) y) as [[E U]|[E U]]; rewrite U in Y.
        -- injection Y as <-. subst y. apply (s_obj _ _ SU _ _ Q2).
        -- apply (s_obj _ _ SU _ _ Y).
      * intros w W. unfold shown_cell. now rewrite C3, up_same, S3, up_same.
      * intros b w N W. rewrite C3, up_other in W by auto. apply (s_cel _ _ SU _ _ W).
      * intros b t N W. pose proof (d_cell _ _ _ D3 _ _ W (fun z => z)) as [p P]. rewrite P. rewrite S3 in P.
        destruct (up_cases (slots h2) s (Some (Slot (Some o') a)) t) as [[E U]|[E U]]; rewrite U in P.
        -- injection P as _ P. congruence.
        -- symmetry. apply (s_slo _ _ SU _ _ P).
Qed.

Lemma set_twice k v l : (forall x, get_item k l <> Some x) -> set_item k v (l ++ [(k, SU)]) = set_item k v l.
Proof.
  induction l as [|[k' x] l IH]; cbn; intros N; [now rewrite Nat.eqb_refl|]. destruct (k =? k'); [now destruct (N x)|]. f_equal. auto.
Qed.
Lemma find_app k l a : find_cell k l = None -> find_cell k (l ++ [(k, a)]) = Some a.
Proof. induction l as [|[k' b] l IH]; cbn; [now rewrite Nat.eqb_refl|]. destruct (k =? k'); [easy|auto]. Qed.

Lemma assign_ok h S dot o k v : Inv h -> shows h S -> ValOk h v -> RW h None o ->
  RunPostX h (let* (h3, s) := dest h dot o k in store addr h3 s v) (sstore S dot o k (shown_val h v))
    (dot = false -> forall c o1 o2, objs h o = Some c -> get_item k (shown_items h (c_cells c)) = Some (SO o1) -> shown_val h v <> SO o2)
    (dot = true -> forall o' c a s, shown_val h v = SO o' -> objs h o = Some c -> find_cell k (c_cells c) = Some a -> cells h a = Some (CS s) -> RW h (Some s) o').
Proof.
  intros D SH VV RO. destruct (rw_alive _ _ _ D RO) as [c O]. unfold dest, sstore. rewrite O. cbn [need].
  pose proof SH as (Q1 & Q2 & Q3). rewrite (Q3 _ _ O), get_find.
  assert (RV : (exists x, resolve h v = Fine (TPlain x) /\ shown_val h v = plain x /\ (forall s, x <> CS s)) \/
               (exists o', resolve h v = Fine (TCont o') /\ shown_val h v = SO o' /\ objs h o' <> None)).
  { destruct (resolve_ok h v D VV) as [X|(o' & R & SX & RO')]; [auto|right]. exists o'. repeat split; auto. destruct (rw_alive _ _ _ D RO'). congruence. }
  destruct (dot && c_arr c) eqn:DA.
  { cbn. apply andb_true_iff in DA. destruct DA as [-> ->]. reflexivity. }
  destruct (find_cell k (c_cells c)) as [a|] eqn:F.
  - assert ((c_arr c && (dot || false)) = false) as -> by (destruct (c_arr c), dot; auto).
    assert (HA : hold h [] (Some o) a) by (exists c; split; [auto|eapply find_In; eauto]). destruct (d_hold _ _ _ D _ _ HA) as [old C]. rewrite C. cbn [need].
    pose proof (store_new h S o c k a old v D SH O F C RV) as SN. rewrite (surjective_pairing (new_slot h a)) in SN.
    destruct old as [|z|s].
    + rewrite (surjective_pairing (new_slot h a)). cbn [obind]. eapply RunPost_X; [exact SN|]. easy.
    + rewrite (surjective_pairing (new_slot h a)). cbn [obind]. eapply RunPost_X; [exact SN|]. easy.
    + destruct (d_cell _ _ _ D _ _ C (fun z => z)) as [q Q]. destruct dot; cbn [obind].
      * eapply RunPostX_weak; [apply (store_old h S o c k a s v); auto|auto|]. intros B o' E. eapply B; eauto.
      * rewrite (surjective_pairing (new_slot h a)). cbn [obind]. eapply RunPost_X; [exact SN|]. intros B t o' _. apply (B eq_refl c q o' eq_refl).
        rewrite get_find, F. unfold shown_cell. now rewrite C, Q.
  - destruct (c_arr c) eqn:A; [cbn; now rewrite orb_true_r|]. cbn [andb].
    destruct (add_cell_ok h o c k D O) as (h1 & E1 & D1 & O1 & C1 & S1 & V1 & Z1 & N1 & N2 & N3 & F1); [congruence|].
    rewrite E1. rewrite (surjective_pairing (new_slot h1 (ncell h))). cbn [obind].
    set (c1 := with_cells c (c_cells c ++ [(k, ncell h)])). 
    assert (SCC : forall x cx, objs h x = Some cx -> shown_items h1 (c_cells cx) = shown_items h (c_cells cx)).
    { intros x cx X. apply shown_eq. intros b B. destruct (d_hold _ _ _ D (Some x) b) as [w W]; [exists cx; auto|].
      apply (shown_keep h h1 b w); auto; [|intros t y T; now rewrite S1]. rewrite C1, up_other; [auto|].
      assert (b < ncell h) by (apply (d_bc _ _ _ D); congruence). lia. }
    assert (IT : shown_items h1 (c_cells c1) = shown_items h (c_cells c) ++ [(k, SU)]).
    { rewrite <- (SCC o c O). unfold shown_items. cbn. rewrite map_app. cbn. f_equal. unfold shown_cell. now rewrite C1, up_same. }
    assert (SH1 : shows h1 (sput S o (c_arr c) (shown_items h (c_cells c) ++ [(k, SU)]))).
    { split; [cbn; congruence|]. split; [cbn; rewrite V1, <- Q2; apply shown_vars, D|]. intros x cx X. cbn. rewrite O1 in X.
      destruct (up_cases (objs h) o (Some c1) x) as [[E U]|[E U]]; fold c1 in X; rewrite U in X.
      - injection X as <-. subst x. rewrite up_same, IT. reflexivity.
      - rewrite up_other by auto. now rewrite (Q3 _ _ X), (SCC x cx X). }
    assert (OC1 : objs h1 o = Some c1) by (rewrite O1; apply up_same).
    assert (SV : shown_val h1 v = shown_val h v) by (unfold shown_val; now rewrite S1).
    assert (RE : resolve h1 v = resolve h v) by (unfold resolve; now rewrite S1).
    pose proof (store_new h1 _ o c1 k (ncell h) CU v D1 SH1 OC1) as SN. rewrite (surjective_pairing (new_slot h1 (ncell h))) in SN.
    rewrite IT, SV, RE, set_twice in SN by (intros x; rewrite get_find, F; easy).
    assert (C1a : cells h1 (ncell h) = Some CU) by (rewrite C1; apply up_same).
    specialize (SN (find_app k (c_cells c) (ncell h) F) C1a).
    unfold RunPostX, RunPost in SN |- *. destruct (store addr (fst (new_slot h1 (ncell h))) (snd (new_slot h1 (ncell h))) v).
    all: match type of SN with ?X -> _ => assert (RV1 : X) end.
    all: try (destruct RV as [RV|(o' & R & SX & OA)]; [left; exact RV|right]; exists o'; repeat split; auto; rewrite O1; unfold up; destruct (o' =? o); [easy|auto]).
    all: specialize (SN RV1); try easy.
    destruct SN as (D3 & (S' & ES & SH3) & F3). injection ES as <-. split; [auto|]. split.
    + eexists. split; [reflexivity|]. eapply shows_ext; [| | |exact SH3]; auto. intros x. cbn. unfold up. rewrite A. now destruct (x =? o).
    + intros _ FF. apply F3; [easy|auto].
Qed.


Lemma elem_ok h S dot d k e : Inv h -> shows h S -> wf_expr d -> wf_expr e ->
  RunPostX h (let* (h1, v) := eval addr h e in let* (h2, y) := eval addr h1 d in let* t := resolve h2 y in
      match t with TPlain _ => Script | TCont o => let* (h3, s) := dest h2 dot o k in store addr h3 s v end)
    (match seval S e with
      | Some (S1, v) => match seval S1 d with Some (S2, SO o) => sstore S2 dot o k v | _ => None end
      | None => None
      end)
    (dot = false -> overwrites addr h (Set_ (LIdx d k) e) = false)
    (dot = true -> keeps addr h (Set_ (LDot d k) e)).
Proof.
  intros D SH WD WE. unfold overwrites, keeps.
  pose proof (eval_ok addr e h S WE D SH) as P1. destruct (eval addr h e) as [[h1 v]| | | |]; cbn [EvalPost obind] in *; try easy; [|now rewrite P1].
  destruct P1 as (D1 & FR1 & ZK1 & VV1 & NZ1 & (S1 & SE1 & SH1) & FU1 & _ & DR1). rewrite SE1.
  pose proof (eval_ok addr d h1 S1 WD D1 SH1) as P2. destruct (eval addr h1 d) as [[h2 y]| | | |] eqn:ED; cbn [EvalPost obind] in *; try easy; [|now rewrite P2].
  destruct P2 as (D2 & FR2 & ZK2 & VV2 & NZ2 & (S2 & SE2 & SH2) & FU2 & _). rewrite SE2.
  pose proof (ValOk_frame _ _ _ _ FR2 ZK2 VV1) as VV. rewrite <- (shown_frame _ _ _ _ FR2 VV1).
  destruct (resolve_ok h2 y D2 VV2) as [(x & R & SX & NX)|(o & R & SX & RO)]; rewrite R, SX; cbn [obind].
  - cbn. now destruct x.
  - pose proof (assign_ok h2 S2 dot o k v D2 SH2 VV RO) as P3. unfold RunPostX, RunPost in *.
    destruct (let* (h3, s) := dest h2 dot o k in store addr h3 s v); auto.
    + destruct P3 as (D3 & SH3 & F3). split; [auto|]. split; [auto|].
      intros CA FF. apply F3; [|auto]. intros DD c o1 o2 O G E. specialize (CA DD). now rewrite E, O, G in CA.
    + intros KE. apply P3. intros DD o' c a s E O F C. destruct (KE DD) as [DI|LE].
      * destruct v as [| |o1|t]; [easy|easy| |now destruct (DR1 DI t)]. cbn in E. injection E as ->. destruct VV; [now apply rw_zero|now apply rw_var].
      * eapply leads_rw; eauto. 
Qed.

Lemma run1_ok h S st : Inv h -> shows h S -> wf_stmt st -> RunPostX h (run1 addr h st) (srun1 S st) (overwrites addr h st = false) (keeps addr h st).
Proof.
  intros D SH W. destruct st as [[x|d k|d k] e]; cbn [run1 srun1 wf_stmt] in *.
  - pose proof (eval_ok addr e h S W D SH) as P1. destruct (eval addr h e) as [[h1 v]| | | |]; cbn [EvalPost obind] in *; try easy; [|cbn; now rewrite P1].
    destruct P1 as (D1 & FR1 & ZK1 & VV1 & NZ1 & (S1 & SE1 & SH1) & FU1 & _). rewrite SE1.
    pose proof (store_var_ok h1 S1 x v D1 SH1 VV1) as P2. unfold RunPostX, RunPost in *. destruct (store_var h1 x v); try easy. destruct P2 as (D2 & X & F2). split; [auto|]. split; auto.
  - destruct W as [WD WE]. eapply RunPostX_weak; [apply (elem_ok h S true d k e D SH WD WE)|easy|auto].
  - destruct W as [WD WE]. eapply RunPostX_weak; [apply (elem_ok h S false d k e D SH WD WE)|auto|easy].
Qed.

Lemma run_ok : forall p h S, Inv h -> shows h S -> Forall wf_stmt p -> RunPostX h (run addr h p) (srun S p) (calm addr h p) (keeping addr h p).
Proof.
  induction p as [|st p IH]; intros h S D SH W; cbn [run srun].
  - split; [auto|]. split; [eauto|auto].
  - inversion W; subst. pose proof (run1_ok h S st D SH) as P. specialize (P H1). unfold RunPostX, RunPost in P |- *. cbn [calm keeping].
    destruct (run1 addr h st) as [h1| | | |]; cbn [obind]; auto; [|now rewrite P|tauto].
    destruct P as (D1 & (S1 & E1 & SH1) & F1). rewrite E1. specialize (IH h1 S1 D1 SH1 H2). unfold RunPostX, RunPost in IH.
    destruct (run addr h1 p); auto; [|tauto]. destruct IH as (D2 & X & F2). split; [auto|]. split; [auto|]. intros [A B] FF. auto.
Qed.
Lemma careful_keeping : forall p h, Forall careful p -> keeping addr h p.
Proof.
  induction p as [|st p IH]; intros h C; [exact I|]. inversion C; subst. split; [|destruct (run1 addr h st); auto].
  destruct st as [[|d k|] e]; cbn in *; auto.
Qed.

End Addr2.


Lemma orefs_VU n o : orefs (repeat VU n) o = 0.
Proof. induction n; cbn; auto. Qed.
Lemma start_ok n : Inv (start n) /\ shows (start n) (sstart n) /\ Full (start n) [].
Proof.
  split; [|split].
  - constructor; cbn; try easy; try (split; [easy|intros [c [E _]]; discriminate E]); try (constructor; fail).
    + intros [p|] a H; [destruct H as [c [E _]]; discriminate E|easy].
    + intros [p|] q a H; [destruct H as [c [E _]]; discriminate E|easy].
    + intros v V. apply repeat_spec in V. now subst v.
  - split; [auto|]. split; [|easy]. cbn. induction n; cbn; [auto|now f_equal].
  - intros o c s a O. discriminate O.
Qed.
