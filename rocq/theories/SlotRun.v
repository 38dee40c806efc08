(** Proofs about containers held by containers: programs. *)
From Coq Require Import List ZArith Bool Arith Lia.
From Verif Require Import SlotModel SlotSpec SlotProofs.
Import ListNotations.
Local Arguments Nat.eqb : simpl never.
Local Arguments Nat.modulo : simpl never.
Local Arguments Nat.ltb : simpl never.

Section Addr.
Variable addr : nat -> nat.

Lemma cyc_set_same h o : objs (cyc_set addr h o) = objs h /\ cells (cyc_set addr h o) = cells h /\ slots (cyc_set addr h o) = slots h /\
  vars (cyc_set addr h o) = vars h /\ zero (cyc_set addr h o) = zero h /\ nobj (cyc_set addr h o) = nobj h /\
  ncell (cyc_set addr h o) = ncell h /\ nslot (cyc_set addr h o) = nslot h.
Proof. unfold cyc_set. destruct (mem o (cyc h)); repeat split. Qed.
Lemma cyc_set_In h o x : In x (cyc (cyc_set addr h o)) <-> x = o \/ In x (cyc h).
Proof.
  unfold cyc_set. destruct (mem o (cyc h)) eqn:M; [|cbn; apply In_insert_at]. apply mem_In in M. intuition congruence.
Qed.
Lemma cyc_set_NoDup h o : NoDup (cyc h) -> NoDup (cyc (cyc_set addr h o)).
Proof.
  unfold cyc_set. destruct (mem o (cyc h)) eqn:M; [auto|]. intros. cbn. apply NoDup_insert_at; auto.
  intros I. apply mem_In in I. congruence.
Qed.

(** *** A slot is given a container *)
Lemma reattach h s a o c v : DInv h [] [s] -> s < nslot h -> cells h a = Some v -> objs h o = Some c ->
  (forall x, cells h x = Some (CS s) -> x = a) ->
  exists h', share (cyc_set addr (put_cell (put_slot (put_obj h o (Some (with_slots c (c_slots c ++ [s])))) s (Some (Slot (Some o) a))) a (Some (CS s))) o) o = Fine h' /\
    Inv h' /\ (forall x, objs h' x = up (objs h) o (Some (Cont (c_arr c) (c_cells c) (S (c_n c)) (c_slots c ++ [s]))) x) /\
    cells h' = up (cells h) a (Some (CS s)) /\ slots h' = up (slots h) s (Some (Slot (Some o) a)) /\
    vars h' = vars h /\ nobj h' = nobj h /\ ncell h' = ncell h /\ nslot h' = nslot h /\
    (forall x, In x (zero h') <-> In x (zero h) /\ x <> o) /\
    ((forall t, v = CS t -> t = s) -> Full h [] -> Full h' []).
Proof.
  intros D SL CE O UQ.
  set (h0 := put_cell (put_slot (put_obj h o (Some (with_slots c (c_slots c ++ [s])))) s (Some (Slot (Some o) a))) a (Some (CS s))).
  destruct (cyc_set_same h0 o) as (EO & EC & ES & EV & EZ & E1 & E2 & E3). set (h1 := cyc_set addr h0 o) in *.
  assert (O1 : objs h1 o = Some (with_slots c (c_slots c ++ [s]))) by (rewrite EO; cbn; now rewrite up_same).
  assert (Z : (c_n c =? 0) = true -> mem o (zero h1) = true).
  { intros N. apply Nat.eqb_eq in N. apply mem_In. rewrite EZ. apply (d_zero _ _ _ D). eauto. }
  assert (R : exists h', share h1 o = Fine h' /\ objs h' = up (objs h1) o (Some (Cont (c_arr c) (c_cells c) (S (c_n c)) (c_slots c ++ [s]))) /\
     cells h' = cells h1 /\ slots h' = slots h1 /\ vars h' = vars h1 /\ nobj h' = nobj h1 /\ ncell h' = ncell h1 /\ nslot h' = nslot h1 /\
     cyc h' = cyc h1 /\ NoDup (zero h') /\ (forall x, In x (zero h') <-> In x (zero h) /\ x <> o)).
  { unfold share. rewrite O1. cbn [need with_slots c_n with_n c_arr c_cells c_slots]. destruct (Nat.eqb_spec (c_n c) 0) as [N|N].
    - rewrite Z by auto. eexists. split; [reflexivity|]. rewrite N. repeat (split; [reflexivity|]). cbn [set_zero zero].
      split; [apply del_NoDup; rewrite EZ; apply (d_znd _ _ _ D)|]. intros x. rewrite del_In, EZ. cbn. tauto.
    - eexists. split; [reflexivity|]. repeat (split; [reflexivity|]). cbn. rewrite EZ. split; [apply (d_znd _ _ _ D)|]. cbn.
      intros x. split; [|tauto]. intros X. split; auto. intros ->. apply (d_zero _ _ _ D) in X. destruct X as [c0 [X Y]]. congruence. }
  destruct R as (h' & SH & RO & RC & RS & RV & R1 & R2 & R3 & RY & RN & RZ). exists h'. split; [exact SH|].
  assert (FO : forall x, objs h' x = up (objs h) o (Some (Cont (c_arr c) (c_cells c) (S (c_n c)) (c_slots c ++ [s]))) x).
  { intros x. rewrite RO, EO. cbn. unfold up. now destruct (x =? o). }
  assert (FC : cells h' = up (cells h) a (Some (CS s))) by (rewrite RC, EC; reflexivity).
  assert (FS : slots h' = up (slots h) s (Some (Slot (Some o) a))) by (rewrite RS, ES; reflexivity).
  assert (FV : vars h' = vars h) by (rewrite RV, EV; reflexivity).
  assert (OC : forall x c', objs h' x = Some c' -> (x = o /\ c' = Cont (c_arr c) (c_cells c) (S (c_n c)) (c_slots c ++ [s])) \/ (x <> o /\ objs h x = Some c')).
  { intros x c' X. rewrite FO in X. destruct (up_cases (objs h) o (Some (Cont (c_arr c) (c_cells c) (S (c_n c)) (c_slots c ++ [s]))) x) as [[E U]|[E U]]; rewrite U in X; [left|right]; split; auto. congruence. }
  assert (HO : forall p x, hold h' [] p x -> hold h [] p x).
  { intros [p|] x H; [|exact H]. destruct H as [c' [X Y]]. destruct (OC _ _ X) as [[-> ->]|[N X']]; [exists c|exists c']; auto. }
  assert (HO' : forall p x, hold h [] p x -> hold h' [] p x).
  { intros [p|] x H; [|exact H]. destruct H as [c' [X Y]]. unfold hold. destruct (Nat.eq_dec p o) as [->|N].
    - rewrite O in X. injection X as <-. eexists. rewrite FO, up_same. split; [reflexivity|exact Y].
    - exists c'. rewrite FO, up_other; auto. }
  assert (NS : ~ In s (c_slots c)) by (intros X; destruct (d_ls _ _ _ D _ _ _ O X) as [Y _]; apply Y; now left).
  split; [|split; [exact FO|split; [exact FC|split; [exact FS|split; [exact FV|split; [|split; [|split; [|split; [exact RZ|]]]]]]]]].
  - constructor.
    + intros x c' X. rewrite FV. destruct (OC _ _ X) as [[-> ->]|[N X']]; [|apply (d_n _ _ _ D); auto].
      cbn [c_n c_slots]. rewrite app_length. cbn [length]. pose proof (d_n _ _ _ D _ _ O). lia.
    + intros x c' X. destruct (OC _ _ X) as [[-> ->]|[N X']]; [|apply (d_nd _ _ _ D _ _ X')].
      cbn. apply NoDup_app'; [apply (d_nd _ _ _ D _ _ O)|repeat constructor; easy|]. intros y Y [->|[]]. auto.
    + intros x c' t X T. split; [easy|]. rewrite FS. destruct (Nat.eq_dec t s) as [->|NE].
      * rewrite up_same. destruct (OC _ _ X) as [[-> ->]|[N X']]; [eauto|]. destruct (d_ls _ _ _ D _ _ _ X' T) as [Y _]. exfalso. apply Y. now left.
      * rewrite up_other by auto. destruct (OC _ _ X) as [[-> ->]|[N X']].
        -- cbn in T. apply in_app_iff in T. destruct T as [T|[T|[]]]; [|congruence]. apply (d_ls _ _ _ D _ _ _ O T).
        -- apply (d_ls _ _ _ D _ _ _ X' T).
    + intros t x b T _. rewrite FS in T. destruct (up_cases (slots h) s (Some (Slot (Some o) a)) t) as [[E U]|[E U]]; rewrite U in T.
      * injection T as <- <-. eexists. rewrite FO, up_same. split; [reflexivity|]. cbn. apply in_app_iff. right. now left.
      * destruct (d_src _ _ _ D _ _ _ T) as [c0 [X Y]]; [intros [->|[]]; congruence|].
        destruct (Nat.eq_dec x o) as [->|N].
        -- eexists. rewrite FO, up_same. split; [reflexivity|]. cbn. apply in_app_iff. left. congruence.
        -- exists c0. rewrite FO, up_other; auto.
    + intros p x H. rewrite FC. destruct (up_cases (cells h) a (Some (CS s)) x) as [[E ->]|[E ->]]; [eauto|]. eapply (d_hold _ _ _ D), HO, H.
    + intros p q x H1 H2. apply (d_disj _ _ _ D p q x); auto.
    + constructor.
    + intros x c' X. destruct (OC _ _ X) as [[-> ->]|[N X']]; [cbn; apply (d_ndc _ _ _ D _ _ O)|apply (d_ndc _ _ _ D _ _ X')].
    + intros x c' X. destruct (OC _ _ X) as [[-> ->]|[N X']]; [cbn; apply (d_keys _ _ _ D _ _ O)|apply (d_keys _ _ _ D _ _ X')].
    + intros x t X _. rewrite FC in X. rewrite FS. destruct (up_cases (cells h) a (Some (CS s)) x) as [[E U]|[E U]]; rewrite U in X.
      * injection X as <-. rewrite up_same. subst x. eauto.
      * assert (t <> s) by (intros ->; apply E, UQ, X). rewrite up_other by auto. apply (d_cell _ _ _ D _ _ X). intros [->|[]]; congruence.
    + easy.
    + intros v' V. rewrite FV in V. pose proof (d_var _ _ _ D _ V) as W. destruct v' as [| |x|]; auto. rewrite FO.
      unfold up. destruct (x =? o); [easy|auto].
    + exact RN.
    + intros x. rewrite RZ, (d_zero _ _ _ D x), FO. split.
      * intros [[c0 [X Y]] N]. exists c0. now rewrite up_other.
      * intros [c' [X Y]]. destruct (up_cases (objs h) o (Some (Cont (c_arr c) (c_cells c) (S (c_n c)) (c_slots c ++ [s]))) x) as [[E U]|[E U]]; rewrite U in X.
        -- injection X as <-. discriminate Y.
        -- split; eauto.
    + rewrite RY. apply cyc_set_NoDup. apply (d_cnd _ _ _ D).
    + intros x. rewrite RY. unfold h1. rewrite cyc_set_In. change (cyc h0) with (cyc h). rewrite (d_cyc _ _ _ D x), FO. split.
      * intros [->|[c0 [X Y]]]; [rewrite up_same; eexists; split; [reflexivity|]; cbn; now destruct (c_slots c)|].
        destruct (Nat.eq_dec x o) as [->|N]; [rewrite up_same; eexists; split; [reflexivity|]; cbn; now destruct (c_slots c)|].
        rewrite up_other by auto. eauto.
      * intros [c' [X Y]]. destruct (Nat.eq_dec x o) as [->|N]; [auto|]. rewrite up_other in X by auto. right; eauto.
    + intros x X. rewrite R1, E1. apply (d_bo _ _ _ D). rewrite FO in X. unfold up in X. destruct (Nat.eqb_spec x o); [congruence|auto].
    + intros x X. rewrite R2, E2. apply (d_bc _ _ _ D). rewrite FC in X. unfold up in X. destruct (Nat.eqb_spec x a); [congruence|auto].
    + intros x X. rewrite R3, E3. rewrite FS in X. unfold up in X. destruct (Nat.eqb_spec x s); [subst; exact SL|apply (d_bs _ _ _ D _ X)].
    + intros x X. rewrite FC in X. assert (cells h x <> None) as Y by (unfold up in X; destruct (Nat.eqb_spec x a); congruence).
      destruct (d_all _ _ _ D _ Y) as [p H]. eauto.
  - now rewrite R1, E1.
  - now rewrite R2, E2.
  - now rewrite R3, E3.
  - intros V F x c' t b X T S _. rewrite FS in S. rewrite FC.
    destruct (up_cases (slots h) s (Some (Slot (Some o) a)) t) as [[E U]|[E U]]; rewrite U in S.
    + injection S as _ <-. rewrite up_same. now subst.
    + assert (objs h x = Some c' /\ In t (c_slots c') \/ x = o /\ In t (c_slots c)) as K.
      { destruct (OC _ _ X) as [[-> ->]|[N X']]; [|auto]. cbn in T. apply in_app_iff in T. destruct T as [T|[T|[]]]; [auto|congruence]. }
      assert (cells h b = Some (CS t)) as B by (destruct K as [[K1 K2]|[-> K2]]; [eapply F; eauto|eapply F; eauto]).
      destruct (Nat.eq_dec b a) as [->|NE]; [|now rewrite up_other]. exfalso. apply E. apply V. congruence.
Qed.

Definition attach h s o := let* h1 := assign_slot addr h s o in share h1 o.

Lemma drain_nil h : drain_all h [] = Fine h.
Proof. reflexivity. Qed.

(** A slot that refers to nothing yet. *)
Lemma attach_new h s a o v : Inv h -> slots h s = Some (Slot None a) -> cells h a = Some v -> objs h o <> None ->
  exists h' c, attach h s o = Fine h' /\ objs h o = Some c /\
    Inv h' /\ (forall x, objs h' x = up (objs h) o (Some (Cont (c_arr c) (c_cells c) (S (c_n c)) (c_slots c ++ [s]))) x) /\
    cells h' = up (cells h) a (Some (CS s)) /\ slots h' = up (slots h) s (Some (Slot (Some o) a)) /\
    vars h' = vars h /\ nobj h' = nobj h /\ ncell h' = ncell h /\ nslot h' = nslot h /\
    (forall x, In x (zero h') <-> In x (zero h) /\ x <> o) /\
    ((forall t, v <> CS t) -> Full h [] -> Full h' []).
Proof.
  intros D SL CE OA. destruct (objs h o) as [c|] eqn:O; [|easy].
  assert (BS : s < nslot h) by (apply (d_bs _ _ _ D); congruence).
  assert (D1 : DInv h [] [s]).
  { destruct D. constructor; auto.
    - intros x c' t X T. destruct (d_ls _ _ _ X T) as [_ [b B]]. split; [|eauto]. intros [->|[]]. congruence.
    - intros t x b T _. apply (d_src t x b T). easy. }
  assert (UQ : forall x, cells h x = Some (CS s) -> x = a).
  { intros x X. destruct (d_cell _ _ _ D _ _ X (fun z => z)) as [o' E]. congruence. }
  destruct (reattach h s a o c v D1 BS CE O UQ) as (h' & SH & I' & R). exists h', c.
  split; [|split; [auto|split; [auto|]]].
  - unfold attach, assign_slot, set_src, unlink. rewrite SL. cbn [need s_src obind s_cell]. rewrite drain_nil. cbn [obind]. rewrite O. cbn [need].
    rewrite ring_insert_ok by (eapply list_alive; eauto). cbn [obind]. cbn [put_slot set_slots slots]. rewrite up_same. cbn [need s_cell].
    match goal with |- context [cells (put_slot ?x ?y ?z) a] => change (cells (put_slot x y z) a) with (cells h a) end. rewrite CE. cbn [need obind]. exact SH.
  - decompose [and] R. repeat (split; [assumption|]). intros V. apply H8. intros t E. now apply V in E.
Qed.

(** A slot that is moved from one container to another: the containers of [P] survive. *)
Lemma attach_any P h s a old o : Inv h -> Prot P h [] -> slots h s = Some (Slot (Some old) a) -> cells h a = Some (CS s) -> old <> o ->
  (exists p, P p /\ hold h [] (Some p) a) ->
  (forall q t, P q -> objs h q = Some t -> In s (c_slots t) ->
     In q (zero h) \/ In (VO q) (vars h) \/ exists s' x' p', s' <> s /\ In s' (c_slots t) /\ cells h x' = Some (CS s') /\ P p' /\ hold h [] (Some p') x') ->
  (attach h s o = Crash /\ ~ P o) \/
  exists h2 h' c, attach h s o = Fine h' /\ sub h2 h /\ DInv h2 [] [s] /\ objs h2 o = Some c /\ Prot P h2 [] /\
    Inv h' /\ (forall x, objs h' x = up (objs h2) o (Some (Cont (c_arr c) (c_cells c) (S (c_n c)) (c_slots c ++ [s]))) x) /\
    cells h' = up (cells h2) a (Some (CS s)) /\ slots h' = up (slots h2) s (Some (Slot (Some o) a)) /\
    vars h' = vars h /\ nobj h' = nobj h /\ ncell h' = ncell h /\ nslot h' = nslot h /\
    (Full h [] -> Full h' []).
Proof.
  intros D PR SL CE NE [p [Pp Hp]] SUP.
  destruct (d_src _ _ _ D _ _ _ SL (fun z => z)) as [c0 [O I]].
  assert (UQ : forall x, cells h x = Some (CS s) -> x = a).
  { intros x X. destruct (d_cell _ _ _ D _ _ X (fun z => z)) as [o' E]. congruence. }
  destruct (unlink_inv h [] [] s old a c0 P D PR SL O I) as (h1 & more & U & D1 & PR1 & S1 & EO & EC & ES & NP & SLO & F1).
  - intros x X. rewrite (UQ _ X). eauto.
  - easy.
  - intros x p0 q t X P0 H0 Pq Q T. eapply SUP; eauto.
  - rewrite app_nil_r in *.
    assert (HP1 : hold h1 more (Some p) a).
    { destruct (PR1 p Pp) as [c1 [Q1 _]]. exists c1. split; auto. destruct (s_obj _ _ S1 _ _ Q1) as [c2 [Q2 [_ E2]]]. rewrite E2.
      destruct Hp as [c3 [Q3 H3]]. congruence. }
    destruct (drain_all_ok P h1 more [s] D1 PR1) as (h2 & E & D2 & PR2 & S2 & F2).
    + intros x t [<-|[]] X. rewrite EC in X. rewrite (UQ _ X). eauto.
    + assert (S21 : sub h2 h) by (eapply sub_trans; eauto).
      assert (CE2 : cells h2 a = Some (CS s)).
      { destruct (PR2 p Pp) as [c1 [Q1 _]]. assert (H : hold h2 [] (Some p) a).
        { exists c1. split; auto. destruct (s_obj _ _ S21 _ _ Q1) as [c2 [Q2 [_ E2]]]. rewrite E2. destruct Hp as [c3 [Q3 H3]]. congruence. }
        destruct (d_hold _ _ _ D2 _ _ H) as [v V]. pose proof (s_cel _ _ S21 _ _ V). congruence. }
      destruct (objs h2 o) as [c|] eqn:O2.
      2: { left. split; [|intros Po; destruct (PR2 o Po) as [c [O3 _]]; congruence].
        unfold attach, assign_slot, set_src. rewrite SL. cbn [need s_src s_cell]. destruct (Nat.eqb_spec old o); [easy|].
        rewrite U. cbn [obind]. rewrite E. cbn [obind]. rewrite O2. reflexivity. }
      right.
      assert (UQ2 : forall x, cells h2 x = Some (CS s) -> x = a) by (intros x X; apply UQ, (s_cel _ _ S21), X).
      assert (BS : s < nslot h2) by (rewrite (s_ns _ _ S21); apply (d_bs _ _ _ D); congruence).
      destruct (reattach h2 s a o c (CS s) D2 BS CE2 O2 UQ2) as (h' & SH & I' & R).
      exists h2, h', c. split.
      * unfold attach, assign_slot, set_src. rewrite SL. cbn [need s_src s_cell]. destruct (Nat.eqb_spec old o); [easy|].
        rewrite U. cbn [obind]. rewrite E. cbn [obind]. rewrite O2. cbn [need]. rewrite ring_insert_ok by (eapply list_alive; eauto).
        cbn [obind put_slot set_slots slots]. rewrite up_same. cbn [need s_cell]. match goal with |- context [cells (put_slot ?x ?y ?z) a] => change (cells (put_slot x y z) a) with (cells h2 a) end. rewrite CE2. cbn [need obind]. exact SH.
      * destruct R as (R1 & R2 & R3 & R4 & R5 & R6 & R7 & R8 & R9).
        repeat (split; [assumption|]). rewrite (s_var _ _ S21) in R4. rewrite (s_no _ _ S21) in R5. rewrite (s_nc _ _ S21) in R6. rewrite (s_ns _ _ S21) in R7.
        repeat (split; [assumption|]). intros F. apply R9; [now intros t [= ->]|]. apply F2. apply (F1 [] F).
Qed.


End Addr.

(** *** What can be reached *)
Inductive RW (h : hp) (x : option nat) : nat -> Prop :=
| rw_zero o : In o (zero h) -> RW h x o
| rw_var o : In (VO o) (vars h) -> RW h x o
| rw_step p a t o : RW h x p -> hold h [] (Some p) a -> cells h a = Some (CS t) -> Some t <> x -> slots h t = Some (Slot (Some o) a) -> RW h x o.

Lemma rw_alive h x o : Inv h -> RW h x o -> exists c, objs h o = Some c.
Proof.
  intros D R. destruct R as [o Z|o V|p a t o R H C N S].
  - apply (d_zero _ _ _ D) in Z. destruct Z as [c [Z _]]. eauto.
  - pose proof (d_var _ _ _ D _ V) as W. cbn in W. destruct (objs h o); [eauto|easy].
  - destruct (d_src _ _ _ D _ _ _ S (fun z => z)) as [c [Q _]]. eauto.
Qed.
Lemma rw_sup h x o c : Inv h -> RW h x o -> objs h o = Some c ->
  In o (zero h) \/ In (VO o) (vars h) \/ exists s' a p, Some s' <> x /\ In s' (c_slots c) /\ cells h a = Some (CS s') /\ RW h x p /\ hold h [] (Some p) a.
Proof.
  intros D R O. destruct R as [o Z|o V|p a t o R H C N S]; auto. right; right. exists t, a, p.
  destruct (d_src _ _ _ D _ _ _ S (fun z => z)) as [c0 [Q I]]. assert (c0 = c) as -> by congruence. auto.
Qed.
Lemma rw_prot h x : Inv h -> Prot (RW h x) h [].
Proof.
  intros D o R. destruct (rw_alive h x o D R) as [c O]. exists c. split; [auto|].
  destruct (rw_sup h x o c D R O) as [Z|[V|(s & a & p & N & I & C & Rp & H)]]; auto. right; right. exists s, a, p. auto.
Qed.
(** What is reached through a slot is reached through the container the slot is in. *)
Lemma rw_split h s a D o : Inv h -> cells h a = Some (CS s) -> hold h [] (Some D) a -> RW h None o -> RW h (Some s) o \/ RW h (Some s) D.
Proof.
  intros I C H R. induction R as [o Z|o V|p b t o R IH Hb Cb N S].
  - left. now apply rw_zero.
  - left. now apply rw_var.
  - destruct IH as [IH|IH]; [|auto]. destruct (Nat.eq_dec t s) as [->|NE].
    + right. destruct (d_cell _ _ _ I _ _ C (fun z => z)) as [o1 E1]. rewrite S in E1. injection E1 as _ ->.
      pose proof (d_disj _ _ _ I _ _ _ H Hb) as E. injection E as ->. exact IH.
    + left. eapply rw_step; eauto. congruence.
Qed.
Lemma rw_owner h s a D : Inv h -> cells h a = Some (CS s) -> hold h [] (Some D) a -> RW h None D -> RW h (Some s) D.
Proof. intros I C H R. destruct (rw_split h s a D D I C H R); auto. Qed.

Definition ValOk (h : hp) (v : val) : Prop :=
  match v with
  | VO o => In o (zero h) \/ In (VO o) (vars h)
  | VS s => exists o a p, slots h s = Some (Slot (Some o) a) /\ cells h a = Some (CS s) /\ hold h [] (Some p) a /\ RW h None p
  | _ => True
  end.
Definition plain (x : cval) : sval := match x with CI z => SI z | _ => SU end.
Lemma resolve_ok h v : Inv h -> ValOk h v ->
  (exists x, resolve h v = Fine (TPlain x) /\ shown_val h v = plain x /\ (forall s, x <> CS s)) \/
  (exists o, resolve h v = Fine (TCont o) /\ shown_val h v = SO o /\ RW h None o).
Proof.
  intros D V. destruct v as [|z|o|s]; cbn in *.
  - left. exists CU. easy.
  - left. exists (CI z). easy.
  - right. exists o. split; [auto|split; [auto|]]. destruct V; [now apply rw_zero|now apply rw_var].
  - destruct V as (o & a & p & S & C & H & R). right. exists o. rewrite S. cbn. split; [auto|split; [auto|]].
    apply (rw_step h None p a s); auto. discriminate.
Qed.

(** *** Elements and slots are made *)
Lemma add_cell_ok h o c k : Inv h -> objs h o = Some c -> (c_arr c = true -> k = length (c_cells c)) ->
  exists h', add_cell h o c k = (h', ncell h) /\ Inv h' /\
    (forall x, objs h' x = up (objs h) o (Some (with_cells c (c_cells c ++ [(k, ncell h)]))) x) /\
    cells h' = up (cells h) (ncell h) (Some CU) /\ slots h' = slots h /\ vars h' = vars h /\ zero h' = zero h /\
    nobj h' = nobj h /\ ncell h' = S (ncell h) /\ nslot h' = nslot h /\ (forall l, Full h l -> Full h' l).
Proof.
  intros D O K. unfold add_cell, new_cell. eexists. split; [reflexivity|].
  match goal with |- Inv ?x /\ _ => set (h' := x) end.
  assert (FO : forall x, objs h' x = up (objs h) o (Some (with_cells c (c_cells c ++ [(k, ncell h)]))) x) by reflexivity.
  assert (FC : cells h' = up (cells h) (ncell h) (Some CU)) by reflexivity.
  assert (FR : cells h (ncell h) = None).
  { destruct (cells h (ncell h)) eqn:E; [|auto]. assert (ncell h < ncell h) by (apply (d_bc _ _ _ D); congruence). lia. }
  assert (OC : forall x c', objs h' x = Some c' -> (x = o /\ c' = with_cells c (c_cells c ++ [(k, ncell h)])) \/ (x <> o /\ objs h x = Some c')).
  { intros x c' X. rewrite FO in X. unfold up in X. destruct (Nat.eqb_spec x o); [left|right]; split; auto. congruence. }
  assert (OS : forall x c', objs h' x = Some c' -> exists c0, objs h x = Some c0 /\ c_n c' = c_n c0 /\ c_slots c' = c_slots c0).
  { intros x c' X. destruct (OC _ _ X) as [[-> ->]|[N X']]; eauto. }
  assert (OS' : forall x c0, objs h x = Some c0 -> exists c', objs h' x = Some c' /\ c_n c' = c_n c0 /\ c_slots c' = c_slots c0).
  { intros x c0 X. destruct (Nat.eq_dec x o) as [->|N].
    - rewrite FO, up_same. rewrite O in X. injection X as <-. eexists. split; [reflexivity|]. split; reflexivity.
    - rewrite FO, up_other by auto. eauto. }
  assert (HO : forall p x, hold h' [] p x -> hold h [] p x \/ (p = Some o /\ x = ncell h)).
  { intros [p|] x H; [|now left]. destruct H as [c' [X Y]]. destruct (OC _ _ X) as [[-> ->]|[N X']]; [|left; exists c'; auto].
    cbn in Y. rewrite map_app, in_app_iff in Y. cbn in Y. destruct Y as [Y|[Y|[]]]; [left; exists c; auto|right; auto]. }
  assert (HN : forall p, ~ hold h [] p (ncell h)).
  { intros p H. destruct (d_hold _ _ _ D _ _ H) as [v V]. congruence. }
  assert (CC : forall x v, cells h x = Some v -> x <> ncell h) by (intros x v X ->; congruence).
  split; [|repeat (split; [first [reflexivity|exact FO]|])].
  - constructor.
    + intros x c' X. destruct (OS _ _ X) as (c0 & X0 & E1 & E2). rewrite E1, E2. apply (d_n _ _ _ D _ _ X0).
    + intros x c' X. destruct (OS _ _ X) as (c0 & X0 & E1 & E2). rewrite E2. apply (d_nd _ _ _ D _ _ X0).
    + intros x c' t X T. destruct (OS _ _ X) as (c0 & X0 & E1 & E2). rewrite E2 in T. apply (d_ls _ _ _ D _ _ _ X0 T).
    + intros t x b T NI. destruct (d_src _ _ _ D _ _ _ T NI) as [c0 [X0 I0]]. destruct (OS' _ _ X0) as (c' & X' & _ & E). exists c'. split; auto. now rewrite E.
    + intros p x H. rewrite FC. destruct (HO _ _ H) as [H'|[_ ->]]; [|rewrite up_same; eauto].
      destruct (d_hold _ _ _ D _ _ H') as [v V]. rewrite up_other by eauto. eauto.
    + intros p q x H1 H2. destruct (HO _ _ H1) as [A|[-> ->]]; destruct (HO _ _ H2) as [B|[-> E]]; auto.
      * apply (d_disj _ _ _ D _ _ _ A B).
      * subst x. now apply HN in A.
      * now apply HN in B.
    + constructor.
    + intros x c' X. destruct (OC _ _ X) as [[-> ->]|[N X']]; [|apply (d_ndc _ _ _ D _ _ X')]. cbn. rewrite map_app.
      apply NoDup_app'; [apply (d_ndc _ _ _ D _ _ O)|repeat constructor; easy|]. cbn. intros y Y [<-|[]]. apply (HN (Some o)). exists c. auto.
    + intros x c' X A. destruct (OC _ _ X) as [[-> ->]|[N X']]; [|apply (d_keys _ _ _ D _ _ X' A)]. cbn in A |- *.
      rewrite map_app, app_length. cbn [map length fst]. rewrite Nat.add_1_r, seq_S. cbn. rewrite (d_keys _ _ _ D _ _ O A). now rewrite (K A).
    + intros x t X NI. rewrite FC in X. destruct (up_cases (cells h) (ncell h) (Some CU) x) as [[E U]|[E U]]; rewrite U in X; [easy|].
      apply (d_cell _ _ _ D _ _ X NI).
    + easy.
    + intros v V. pose proof (d_var _ _ _ D _ V) as W. destruct v as [| |x|]; auto. rewrite FO. unfold up. destruct (x =? o); [easy|auto].
    + apply (d_znd _ _ _ D).
    + intros x. change (zero h') with (zero h). rewrite (d_zero _ _ _ D x). split; intros [c0 [X Z]].
      * destruct (OS' _ _ X) as (c' & X' & E & _). exists c'. split; auto. congruence.
      * destruct (OS _ _ X) as (c' & X' & E & _). exists c'. split; auto. congruence.
    + apply (d_cnd _ _ _ D).
    + intros x. change (cyc h') with (cyc h). rewrite (d_cyc _ _ _ D x). split; intros [c0 [X Z]].
      * destruct (OS' _ _ X) as (c' & X' & _ & E). exists c'. split; auto. congruence.
      * destruct (OS _ _ X) as (c' & X' & _ & E). exists c'. split; auto. congruence.
    + intros x X. change (nobj h') with (nobj h). apply (d_bo _ _ _ D). destruct (objs h' x) as [c'|] eqn:E; [|easy].
      destruct (OS _ _ E) as (c0 & Y & _). congruence.
    + intros x X. change (ncell h') with (S (ncell h)). rewrite FC in X. destruct (up_cases (cells h) (ncell h) (Some CU) x) as [[E U]|[E U]]; rewrite U in X; [lia|].
      apply (d_bc _ _ _ D) in X. lia.
    + intros x X. apply (d_bs _ _ _ D _ X).
    + intros x X. rewrite FC in X. destruct (up_cases (cells h) (ncell h) (Some CU) x) as [[E U]|[E U]]; rewrite U in X.
      * exists (Some o). unfold hold. rewrite FO, up_same. eexists. split; [reflexivity|]. cbn. rewrite map_app, in_app_iff. right. cbn. auto.
      * destruct (d_all _ _ _ D _ X) as [[p|] H]; [|easy]. exists (Some p). destruct H as [c0 [P0 H]]. unfold hold. rewrite FO.
        destruct (up_cases (objs h) o (Some (with_cells c (c_cells c ++ [(k, ncell h)]))) p) as [[E' U']|[E' U']]; rewrite U'.
        -- eexists. split; [reflexivity|]. cbn. rewrite map_app, in_app_iff. left. congruence.
        -- exists c0. auto.
  - intros l F x c' t b X T S N. destruct (OS _ _ X) as (c0 & X0 & E1 & E2). rewrite E2 in T. pose proof (F _ _ _ _ X0 T S N) as B.
    rewrite FC, up_other; eauto.
Qed.

Lemma new_slot_ok h a : Inv h -> exists h', new_slot h a = (h', nslot h) /\ Inv h' /\ objs h' = objs h /\ cells h' = cells h /\
  slots h' = up (slots h) (nslot h) (Some (Slot None a)) /\ vars h' = vars h /\ zero h' = zero h /\
  nobj h' = nobj h /\ ncell h' = ncell h /\ nslot h' = S (nslot h) /\ (forall l, Full h l -> Full h' l).
Proof.
  intros D. eexists. split; [reflexivity|]. match goal with |- Inv ?x /\ _ => set (h' := x) end.
  assert (FR : slots h (nslot h) = None).
  { destruct (slots h (nslot h)) eqn:E; [|auto]. assert (nslot h < nslot h) by (apply (d_bs _ _ _ D); congruence). lia. }
  assert (K : forall t v, slots h t = Some v -> slots h' t = Some v) by (intros t v T; cbn; rewrite up_other; [auto|congruence]).
  assert (K' : forall t o b, slots h' t = Some (Slot (Some o) b) -> slots h t = Some (Slot (Some o) b)).
  { intros t o b. cbn. destruct (up_cases (slots h) (nslot h) (Some (Slot None a)) t) as [[E ->]|[E ->]]; [easy|auto]. }
  split; [|repeat (split; [reflexivity|])].
  - destruct D. constructor; try assumption; cbn [h' objs cells vars zero cyc nobj ncell nslot].
    + intros o c t O T. destruct (d_ls _ _ _ O T) as [A [b B]]. split; [auto|]. eauto.
    + intros t o b T NI. apply (d_src t o b); auto.
    + intros x t X NI. destruct (d_cell _ _ X NI) as [o E]. eauto.
    + intros t T. cbn in T. destruct (up_cases (slots h) (nslot h) (Some (Slot None a)) t) as [[E U]|[E U]]; rewrite U in T; [lia|]. apply d_bs in T. lia.
  - intros l F o c t b O T S N. apply (F o c t b); auto.
Qed.

(** Writing an integer or undefined into an element. *)
Lemma put_plain_ok h a v x : Inv h -> cells h a = Some v -> (forall s, x <> CS s) ->
  Inv (put_cell h a (Some x)) /\ (forall s, v = CS s -> Full h [] -> Full (put_cell h a (Some x)) [s]) /\
  ((forall s, v <> CS s) -> Full h [] -> Full (put_cell h a (Some x)) []).
Proof.
  intros D C NX. set (h' := put_cell h a (Some x)).
  assert (CC : forall y t, cells h' y = Some (CS t) -> y <> a /\ cells h y = Some (CS t)).
  { intros y t. cbn. destruct (up_cases (cells h) a (Some x) y) as [[E ->]|[E ->]]; [|auto]. intros [= F]. now apply NX in F. }
  assert (CN : forall y, cells h' y <> None <-> cells h y <> None).
  { intros y. cbn. destruct (up_cases (cells h) a (Some x) y) as [[E ->]|[E ->]]; [|tauto]. subst. rewrite C. split; easy. }
  split; [|split].
  - destruct D. constructor; try assumption.
    + intros p y H. destruct (d_hold p y H) as [u U]. cbn. destruct (up_cases (cells h) a (Some x) y) as [[E ->]|[E ->]]; eauto.
    + intros y t Y NI. apply CC in Y. now apply d_cell.
    + easy.
    + intros y Y. now apply CN, d_bc in Y.
    + intros y Y. now apply CN, d_all in Y.
  - intros s -> F o c t b O T S N. pose proof (F _ _ _ _ O T S (fun z => z)) as B. cbn. rewrite up_other; [auto|]. intros ->.
    rewrite C in B. injection B as ->. apply N. now left.
  - intros V F o c t b O T S N. pose proof (F _ _ _ _ O T S (fun z => z)) as B. cbn. rewrite up_other; [auto|]. intros ->.
    rewrite C in B. injection B as E. now apply V in E.
Qed.

Lemma new_obj_ok h arr : Inv h -> exists h', new_obj h arr = (h', nobj h) /\ Inv h' /\
  (forall x, objs h' x = up (objs h) (nobj h) (Some (Cont arr [] 0 [])) x) /\ cells h' = cells h /\ slots h' = slots h /\ vars h' = vars h /\
  zero h' = zero h ++ [nobj h] /\ nobj h' = S (nobj h) /\ ncell h' = ncell h /\ nslot h' = nslot h /\ (forall l, Full h l -> Full h' l).
Proof.
  intros D. eexists. split; [reflexivity|]. match goal with |- Inv ?x /\ _ => set (h' := x) end.
  assert (FR : objs h (nobj h) = None).
  { destruct (objs h (nobj h)) eqn:E; [|auto]. assert (nobj h < nobj h) by (apply (d_bo _ _ _ D); congruence). lia. }
  assert (FO : forall x, objs h' x = up (objs h) (nobj h) (Some (Cont arr [] 0 [])) x) by reflexivity.
  assert (OC : forall x c', objs h' x = Some c' -> (x = nobj h /\ c' = Cont arr [] 0 []) \/ (x <> nobj h /\ objs h x = Some c')).
  { intros x c' X. rewrite FO in X. unfold up in X. destruct (Nat.eqb_spec x (nobj h)); [left|right]; split; auto. congruence. }
  assert (OK : forall x c, objs h x = Some c -> objs h' x = Some c).
  { intros x c X. rewrite FO, up_other; [auto|congruence]. }
  assert (HO : forall p x, hold h' [] p x -> hold h [] p x).
  { intros [p|] x H; [|easy]. destruct H as [c' [X Y]]. destruct (OC _ _ X) as [[-> ->]|[N X']]; [easy|exists c'; auto]. }
  assert (HO' : forall p x, hold h [] p x -> hold h' [] p x).
  { intros [p|] x H; [|easy]. destruct H as [c' [X Y]]. exists c'. auto. }
  assert (NV : orefs (vars h) (nobj h) = 0).
  { destruct (orefs (vars h) (nobj h)) eqn:E; [auto|]. unfold orefs in E.
    destruct (filter (fun v => match v with VO o' => o' =? nobj h | _ => false end) (vars h)) as [|v l] eqn:F; [easy|].
    assert (I : In v (filter (fun v => match v with VO o' => o' =? nobj h | _ => false end) (vars h))) by (rewrite F; now left).
    apply filter_In in I. destruct I as [I W]. destruct v as [| |o|]; try easy. apply Nat.eqb_eq in W. subst o.
    pose proof (d_var _ _ _ D _ I) as Q. cbn in Q. congruence. }
  split; [|repeat (split; [first [exact FO|reflexivity]|])].
  - constructor.
    + intros x c' X. destruct (OC _ _ X) as [[-> ->]|[N X']]; [exact (eq_sym NV)|apply (d_n _ _ _ D _ _ X')].
    + intros x c' X. destruct (OC _ _ X) as [[-> ->]|[N X']]; [constructor|apply (d_nd _ _ _ D _ _ X')].
    + intros x c' t X T. destruct (OC _ _ X) as [[-> ->]|[N X']]; [easy|apply (d_ls _ _ _ D _ _ _ X' T)].
    + intros t x b T NI. destruct (d_src _ _ _ D _ _ _ T NI) as [c0 [X0 I0]]. eauto.
    + intros p x H. apply (d_hold _ _ _ D p x); auto.
    + intros p q x H1 H2. apply (d_disj _ _ _ D p q x); auto.
    + constructor.
    + intros x c' X. destruct (OC _ _ X) as [[-> ->]|[N X']]; [constructor|apply (d_ndc _ _ _ D _ _ X')].
    + intros x c' X. destruct (OC _ _ X) as [[-> ->]|[N X']]; [reflexivity|apply (d_keys _ _ _ D _ _ X')].
    + intros x t X NI. apply (d_cell _ _ _ D _ _ X NI).
    + easy.
    + intros v V. pose proof (d_var _ _ _ D _ V) as W. destruct v as [| |x|]; auto. rewrite FO. unfold up. destruct (x =? nobj h); [easy|auto].
    + cbn. apply NoDup_app'; [apply (d_znd _ _ _ D)|repeat constructor; easy|]. intros y Y [<-|[]].
      apply (d_zero _ _ _ D) in Y. destruct Y as [c [Y _]]. congruence.
    + intros x. cbn [h' zero]. rewrite in_app_iff, (d_zero _ _ _ D x). split.
      * intros [[c [X Z]]|[<-|[]]]; [eauto|]. rewrite FO, up_same. eexists. split; [reflexivity|]. reflexivity.
      * intros [c [X Z]]. destruct (OC _ _ X) as [[-> ->]|[N X']]; [right; now left|left; eauto].
    + apply (d_cnd _ _ _ D).
    + intros x. change (cyc h') with (cyc h). rewrite (d_cyc _ _ _ D x). split.
      * intros [c [X Z]]. eauto.
      * intros [c [X Z]]. destruct (OC _ _ X) as [[-> ->]|[N X']]; [easy|eauto].
    + intros x X. change (nobj h') with (S (nobj h)). destruct (objs h' x) as [c|] eqn:E; [|easy]. destruct (OC _ _ E) as [[-> _]|[N X']]; [lia|].
      assert (x < nobj h) by (apply (d_bo _ _ _ D); congruence). lia.
    + apply (d_bc _ _ _ D).
    + apply (d_bs _ _ _ D).
    + intros x X. destruct (d_all _ _ _ D _ X) as [p H]. eauto.
  - intros l F x c' t b X T S N. destruct (OC _ _ X) as [[-> ->]|[N' X']]; [easy|]. eapply F; eauto.
Qed.

