(** Proofs about containers held by containers: the end of a script and the collector. *)
From Coq Require Import List ZArith Bool Arith Lia Permutation.
From Verif Require Import SlotModel SlotSpec SlotProofs SlotRun SlotEval.
Import ListNotations.
Local Arguments Nat.eqb : simpl never.
Local Arguments Nat.modulo : simpl never.
Local Arguments Nat.ltb : simpl never.

Record shrink (h' h : hp) : Prop := {
  k_obj : forall o c', objs h' o = Some c' -> exists c, objs h o = Some c /\ c_arr c' = c_arr c /\ c_cells c' = c_cells c;
  k_cel : forall a v, cells h' a = Some v -> cells h a = Some v;
  k_slo : forall s v, slots h' s = Some v -> slots h s = Some v
}.
Lemma shrink_refl h : shrink h h.
Proof. constructor; eauto. Qed.
Lemma shrink_trans a b c : shrink a b -> shrink b c -> shrink a c.
Proof.
  intros [A1 A2 A3] [B1 B2 B3]. constructor; eauto.
  intros o x X. destruct (A1 _ _ X) as [y [Y [Y1 Y2]]]. destruct (B1 _ _ Y) as [z [Z [Z1 Z2]]]. exists z. repeat split; congruence.
Qed.
Lemma sub_shrink h' h : sub h' h -> shrink h' h.
Proof. intros []. constructor; auto. Qed.
Lemma same_shrink h h' : same h h' -> shrink h' h.
Proof.
  intros M. constructor.
  - intros o c O. destruct (objs h o) as [c0|] eqn:O0; [|exfalso; apply (m_obj' _ _ M o); congruence].
    destruct (m_obj _ _ M _ _ O0) as [n E]. exists c0. split; [auto|]. rewrite E in O. injection O as <-. auto.
  - intros a v A. now rewrite <- (m_cel _ _ M).
  - intros a v A. now rewrite <- (m_slo _ _ M).
Qed.

(** *** Containers that support each other *)
Definition knot (P : nat -> Prop) (h : hp) (w : list nat) : Prop :=
  forall o, P o -> exists c s a p, objs h o = Some c /\ In s (c_slots c) /\ cells h a = Some (CS s) /\ P p /\ hold h w (Some p) a.
Lemma knot_prot P h w : knot P h w -> Prot P h w.
Proof. intros K o Po. destruct (K o Po) as (c & s & a & p & O & I & C & Pp & H). exists c. split; [auto|]. right; right. exists s, a, p. auto. Qed.
Lemma knot_shrink P h w h' : DInv h w [] -> knot P h w -> shrink h' h -> Inv h' -> (forall o, P o -> objs h' o <> None) -> knot P h' [].
Proof.
  intros D K SU D' AL o Po. destruct (K o Po) as (c & s & a & p & O & I & C & Pp & H).
  destruct (objs h' o) as [c'|] eqn:O'; [|now apply AL in Po]. destruct (objs h' p) as [cp|] eqn:Q'; [|now apply AL in Pp].
  assert (HP : hold h' [] (Some p) a).
  { exists cp. split; [auto|]. destruct (k_obj _ _ SU _ _ Q') as (cq & Q & _ & E). destruct H as [cq' [Q2 H]]. rewrite E. congruence. }
  destruct (d_hold _ _ _ D' _ _ HP) as [v V]. pose proof (k_cel _ _ SU _ _ V) as V0. rewrite C in V0. injection V0 as <-.
  destruct (d_cell _ _ _ D' _ _ V (fun z => z)) as [q Q]. pose proof (k_slo _ _ SU _ _ Q) as Q0.
  destruct (d_ls _ _ _ D _ _ _ O I) as [_ [b B]]. rewrite B in Q0. injection Q0 as <- <-.
  destruct (d_src _ _ _ D' _ _ _ Q (fun z => z)) as [c2 [O2 I2]]. exists c2, s, b, p. repeat split; auto. congruence.
Qed.

(** *** A container without references is destroyed *)
Lemma die_gen h vs o c : Inv (set_vars h vs) -> objs h o = Some c -> c_slots c = [] -> orefs vs o = 0 ->
  let h1 := set_vars (set_zero (put_obj h o None) (del o (zero h))) vs in
  DInv h1 (map snd (c_cells c)) [] /\ (Full (set_vars h vs) [] -> Full h1 []).
Proof.
  intros D O SL OR h1.
  assert (FO : forall x, objs h1 x = up (objs h) o None x) by reflexivity.
  assert (OC : forall x c', objs h1 x = Some c' -> x <> o /\ objs h x = Some c').
  { intros x c' X. rewrite FO in X. unfold up in X. destruct (Nat.eqb_spec x o); easy. }
  assert (HO : forall p x, hold h1 (map snd (c_cells c)) p x -> hold (set_vars h vs) [] (match p with None => Some o | _ => p end) x /\ p <> Some o).
  { intros [p|] x H; cbn in H.
    - destruct H as [c' [X Y]]. apply OC in X. split; [exists c'; split; [apply X|auto]|]. intros [= ->]. tauto.
    - split; [|easy]. exists c. auto. }
  split.
  - constructor.
    + intros x c' X. apply OC in X. apply (d_n _ _ _ D x c'), X.
    + intros x c' X. apply OC in X. apply (d_nd _ _ _ D x c'), X.
    + intros x c' t X T. apply OC in X. apply (d_ls _ _ _ D x c' t); tauto.
    + intros t x b T NI. destruct (d_src _ _ _ D _ _ _ T NI) as [c0 [X0 I0]]. exists c0. split; [|auto]. rewrite FO, up_other; [auto|].
      intros ->. cbn in X0. assert (c0 = c) as -> by congruence. now rewrite SL in I0.
    + intros p x H. apply HO in H. eapply (d_hold _ _ _ D), H.
    + intros p q x H1 H2. apply HO in H1, H2. destruct H1 as [H1 N1], H2 as [H2 N2]. pose proof (d_disj _ _ _ D _ _ _ H1 H2) as E. destruct p, q; congruence.
    + apply (d_ndc _ _ _ D o c O).
    + intros x c' X. apply OC in X. apply (d_ndc _ _ _ D x c'), X.
    + intros x c' X. apply OC in X. apply (d_keys _ _ _ D x c'), X.
    + apply (d_cell _ _ _ D).
    + easy.
    + intros v V. pose proof (d_var _ _ _ D v V) as W. destruct v as [| |x|]; auto. rewrite FO, up_other; [auto|]. intros ->. assert (1 <= orefs vs o) by apply orefs_pos, V. lia.
    + apply del_NoDup, (d_znd _ _ _ D).
    + intros x. change (zero h1) with (del o (zero h)). rewrite del_In. pose proof (d_zero _ _ _ D x) as Z. cbn [set_vars zero objs] in Z. rewrite Z. rewrite FO. split.
      * intros [X N]. now rewrite up_other.
      * intros [c0 [X Y]]. unfold up in X. destruct (Nat.eqb_spec x o); [easy|eauto].
    + apply (d_cnd _ _ _ D).
    + intros x. rewrite FO. split.
      * intros X. apply (d_cyc _ _ _ D x) in X. destruct X as [c0 [X Y]]. exists c0. rewrite up_other; [auto|]. intros ->. cbn in X. congruence.
      * intros [c0 [X Y]]. unfold up in X. destruct (Nat.eqb_spec x o); [easy|]. apply (d_cyc _ _ _ D x). eauto.
    + intros x X. apply (d_bo _ _ _ D). rewrite FO in X. unfold up in X. destruct (Nat.eqb_spec x o); [easy|exact X].
    + apply (d_bc _ _ _ D).
    + apply (d_bs _ _ _ D).
    + intros x X. destruct (d_all _ _ _ D _ X) as [[p|] H]; [|easy]. destruct H as [c0 [P0 H]]. destruct (Nat.eq_dec p o) as [->|N].
      * exists None. cbn. cbn in P0. congruence.
      * exists (Some p), c0. rewrite FO, up_other; auto.
  - intros F x c' t b X T S N. apply OC in X. apply (F x c' t b); auto. apply X.
Qed.

(** *** The end of a script *)
Lemma sweep_list_ok P : forall l h, Inv h -> zero h = l -> knot P h [] ->
  exists h', sweep_list h l = Fine h' /\ Inv h' /\ zero h' = [] /\ vars h' = vars h /\ nobj h' = nobj h /\ shrink h' h /\ knot P h' [] /\ (Full h [] -> Full h' []).
Proof.
  induction l as [|o l IH]; intros h D Z K; cbn [sweep_list].
  - exists h. repeat (split; [solve [auto|apply shrink_refl]|]). auto.
  - assert (ZO : In o (zero h)) by (rewrite Z; now left). pose proof ZO as ZO'. apply (d_zero _ _ _ D) in ZO'. destruct ZO' as [c [O N]].
    pose proof (d_n _ _ _ D _ _ O) as NN. assert (SL : c_slots c = []) by (destruct (c_slots c); [auto|cbn in NN; lia]).
    assert (D0 : Inv (set_vars h (vars h))) by (now rewrite set_vars_id).
    destruct (die_gen h (vars h) o c D0 O SL) as [D1 F1]; [lia|].
    unfold die. change (objs (set_zero h (del o (zero h))) o) with (objs h o). rewrite O. cbn [need]. rewrite SL. cbn [isnil obind].
    set (h1 := put_obj (set_zero h (del o (zero h))) o None). change (set_vars (set_zero (put_obj h o None) (del o (zero h))) (vars h)) with h1 in *.
    assert (K1 : knot P h1 (map snd (c_cells c))).
    { intros q Pq. destruct (K q Pq) as (cq & s & a & p & Q & I & C & Pp & H).
      assert (NO : forall y, P y -> y <> o).
      { intros y Py ->. destruct (K o Py) as (cy & sy & _ & _ & Y & Iy & _). assert (cy = c) as -> by congruence. now rewrite SL in Iy. }
      exists cq, s, a, p. split; [cbn; rewrite up_other; auto|]. split; [auto|]. split; [auto|]. split; [auto|].
      destruct H as [cp [X Y]]. exists cp. split; [cbn; rewrite up_other; auto|auto]. }
    destruct (drain_all_ok P h1 (map snd (c_cells c)) [] D1 (knot_prot _ _ _ K1)) as (h2 & E2 & D2 & PR2 & S2 & F2); [easy|].
    rewrite E2. cbn [obind].
    assert (Z2 : zero h2 = l).
    { rewrite (s_zer _ _ S2). cbn. rewrite Z. pose proof (d_znd _ _ _ D) as ND. rewrite Z in ND. inversion ND; subst. cbn. rewrite Nat.eqb_refl. cbn. now apply del_not_in. }
    assert (SH1 : shrink h1 h).
    { constructor; auto. intros x c' X. cbn in X. unfold up in X. destruct (x =? o); [easy|eauto]. }
    destruct (IH h2 D2 Z2) as (h3 & E3 & D3 & Z3 & V3 & N3 & S3 & K3 & F3).
    { apply (knot_shrink P h1 _ h2 D1 K1 (sub_shrink _ _ S2) D2). intros y Py. destruct (PR2 y Py) as [cy [Y _]]. congruence. }
    exists h3. split; [auto|]. split; [auto|]. split; [auto|]. split; [rewrite V3; apply (s_var _ _ S2)|]. split; [rewrite N3; apply (s_no _ _ S2)|].
    split; [eapply shrink_trans; [exact S3|]; eapply shrink_trans; [apply sub_shrink, S2|exact SH1]|]. split; [auto|].
    intros F. apply F3, F2, F1. now rewrite set_vars_id.
Qed.

(** *** The variables are cleared *)
Lemma removelast_app1 {A} (l : list A) x : removelast (l ++ [x]) = l.
Proof. rewrite removelast_app by easy. cbn. now rewrite app_nil_r. Qed.

Lemma clear_vars_ok P : forall l h vs, Inv h -> vars h = vs ++ rev l -> knot P h [] ->
  exists h', clear_vars h l = Fine h' /\ Inv h' /\ vars h' = vs /\ nobj h' = nobj h /\ shrink h' h /\ knot P h' [] /\ (Full h [] -> Full h' []).
Proof.
  induction l as [|v l IH]; intros h vs D V K; cbn [clear_vars].
  - exists h. rewrite app_nil_r in V. repeat (split; [solve [auto|apply shrink_refl]|]). auto.
  - cbn [rev] in V. rewrite app_assoc in V. assert (RL : removelast (vars h) = vs ++ rev l) by (rewrite V; apply removelast_app1). rewrite RL.
    set (us := vs ++ rev l) in *. assert (D0 : Inv (set_vars h (v :: us))).
    { rewrite <- (set_vars_id h), V in D. apply vars_change with (us ++ [v]); auto.
      - intros x. rewrite orefs_cons, orefs_app, orefs_cons. change (orefs [] x) with 0. lia.
      - intros u U. apply (d_var _ _ _ D u). cbn. apply in_app_iff. destruct U as [<-|U]; [right; now left|now left]. }
    assert (IV : In v (vars h)) by (rewrite V; apply in_app_iff; right; now left). pose proof (d_var _ _ _ D v IV) as VV.
    assert (SHV : shrink (set_vars h us) h) by (constructor; eauto).
    assert (FV : Full h [] -> Full (set_vars h us) []) by (intros F; exact F).
    assert (KV : knot P (set_vars h us) []) by exact K.
    assert (PLAIN : (forall o, v <> VO o) -> exists h', clear_vars (set_vars h us) l = Fine h' /\ Inv h' /\ vars h' = vs /\ nobj h' = nobj h /\ shrink h' h /\ knot P h' [] /\ (Full h [] -> Full h' [])).
    { intros NV. destruct (IH (set_vars h us) vs) as (h' & E & D' & V' & N' & S' & K' & F'); auto.
      - apply vars_change with (v :: us); auto; [intros x; rewrite orefs_cons; destruct v; auto; now destruct (NV o)|].
        intros u U. apply (d_var _ _ _ D0 u). now right.
      - exists h'. repeat (split; [solve [auto|eapply shrink_trans; eauto]|]). auto. }
    destruct v as [|z|o|s]; [apply PLAIN; easy|apply PLAIN; easy| |easy]. clear PLAIN.
    destruct (objs h o) as [c|] eqn:O; [|easy]. unfold unref_die, unref_count. change (objs (set_vars h us) o) with (objs h o). rewrite O. cbn [need].
    pose proof (d_n _ _ _ D0 o c O) as N. change (vars (set_vars h (VO o :: us))) with (VO o :: us) in N.
    assert (OR : orefs (VO o :: us) o = S (orefs us o)) by (rewrite orefs_cons; cbn; now rewrite Nat.eqb_refl).
    assert (OR' : forall x, x <> o -> orefs us x = orefs (VO o :: us) x).
    { intros x X. rewrite orefs_cons. unfold orefs1. destruct (Nat.eqb_spec o x); [congruence|auto]. }
    assert (VK : forall u, In u us -> var_ok h u) by (intros u U; apply (d_var _ _ _ D0 u); now right).
    assert (NZ : ~ In o (zero h)).
    { intros Z. apply (d_zero _ _ _ D0 o) in Z. destruct Z as [c0 [X Y]]. cbn in X. rewrite O in X. injection X as <-. lia. }
    destruct (c_n c) as [|n] eqn:EN; [lia|]. cbn [obind].
    destruct (Nat.eqb_spec n 0) as [Z|Z].
    + assert (SL : c_slots c = []) by (destruct (c_slots c); [auto|cbn [length] in N; lia]).
      assert (D1 : Inv (set_vars (set_zero (put_obj h o (Some (with_n c n))) (zero h ++ [o])) us)).
      { apply n_change with (VO o :: us); auto.
        - lia.
        - apply NoDup_app'; [apply (d_znd _ _ _ D0)|repeat constructor; easy|]. intros y Y [<-|[]]. auto.
        - intros x. rewrite in_app_iff. cbn. split.
          + intros [X|[<-|[]]]; [left|right]; auto. split; [congruence|auto].
          + intros [[? ?]|[-> _]]; auto. }
      destruct (die_gen (set_zero (put_obj h o (Some (with_n c n))) (zero h ++ [o])) us o (with_n c n) D1) as [D2 F2]; [cbn; apply up_same|exact SL|lia|].
      unfold die. cbn [put_obj set_objs objs]. rewrite up_same. cbn [need with_n c_slots]. rewrite SL. cbn [isnil obind c_cells].
      match goal with |- context [drain_all ?x _] => set (h1 := x) end.
      match type of D2 with DInv ?x _ _ => set (h2 := x) in * end.
      assert (E12 : objs h2 = objs h1 -> h2 = h1).
      { intros E. unfold h1, h2, set_vars, set_zero, put_obj, set_objs in *. cbn in *. f_equal; auto.
        unfold del. rewrite filter_app. cbn. rewrite Nat.eqb_refl. cbn. rewrite app_nil_r. now apply del_not_in. }
      assert (h2 = h1) as E by (apply E12; reflexivity). rewrite E in *. clear E E12 h2.
      assert (H1 : forall x c', objs h1 x = Some c' -> x <> o /\ objs h x = Some c').
      { intros x c' X. cbn in X. unfold up in X. destruct (Nat.eqb_spec x o); [easy|auto]. }
      assert (K1 : knot P h1 (map snd (c_cells (with_n c n)))).
      { intros q Pq. destruct (K q Pq) as (cq & s & a & p & Q & I & C & Pp & H).
        assert (NO : forall y, P y -> y <> o).
        { intros y Py ->. destruct (K o Py) as (cy & sy & _ & _ & Y & Iy & _). assert (cy = c) as -> by congruence. now rewrite SL in Iy. }
        exists cq, s, a, p. split; [cbn; rewrite !up_other; auto|]. split; [auto|]. split; [auto|]. split; [auto|].
        destruct H as [cp [X Y]]. exists cp. split; [cbn; rewrite !up_other; auto|auto]. }
      destruct (drain_all_ok P h1 (map snd (c_cells c)) [] D2 (knot_prot _ _ _ K1)) as (h2 & E2 & D3 & PR2 & S2 & F3); [easy|].
      match goal with |- context [drain_all ?x ?w] => change (drain_all x w) with (drain_all h1 (map snd (c_cells c))) end. rewrite E2. cbn [obind].
      assert (SH1 : shrink h1 h) by (constructor; auto; intros x c' X; apply H1 in X; exists c'; repeat split; tauto).
      destruct (IH h2 vs D3) as (h3 & E3 & D4 & V4 & N4 & S4 & K4 & F4).
      * apply (s_var _ _ S2).
      * apply (knot_shrink P h1 _ h2 D2 K1 (sub_shrink _ _ S2) D3). intros y Py. destruct (PR2 y Py) as [cy [Y _]]. congruence.
      * exists h3. split; [auto|]. split; [auto|]. split; [auto|]. split; [rewrite N4; apply (s_no _ _ S2)|].
        split; [eapply shrink_trans; [exact S4|]; eapply shrink_trans; [apply sub_shrink, S2|exact SH1]|]. split; [auto|].
        intros F. apply F4, F3, F2. intros x c' t b X T SS NI. cbn in X. unfold up in X. destruct (Nat.eqb_spec x o).
        -- injection X as <-. cbn in T. rewrite SL in T. easy.
        -- eapply F; eauto.
    + cbn [obind]. rewrite drain_nil. cbn [obind].
      assert (D1 : Inv (set_vars (set_zero (put_obj h o (Some (with_n c n))) (zero h)) us)).
      { apply n_change with (VO o :: us); auto.
        - lia.
        - apply (d_znd _ _ _ D0).
        - intros x. split; [|intros [[? ?]|[_ E]]; [tauto|lia]]. intros X. left. split; [congruence|auto]. }
      match goal with |- context [clear_vars ?x _] => set (h1 := x) end.
      change (set_vars (set_zero (put_obj h o (Some (with_n c n))) (zero h)) us) with h1 in D1.
      assert (H1 : forall x c', objs h1 x = Some c' -> exists c0, objs h x = Some c0 /\ c_arr c' = c_arr c0 /\ c_cells c' = c_cells c0 /\ c_slots c' = c_slots c0).
      { intros x c' X. cbn in X. unfold up in X. destruct (Nat.eqb_spec x o); [|eauto]. injection X as <-. subst x. exists c. auto. }
      assert (SH1 : shrink h1 h) by (constructor; auto; intros x c' X; destruct (H1 _ _ X) as (c0 & ? & ? & ? & ?); eauto).
      destruct (IH h1 vs D1) as (h3 & E3 & D4 & V4 & N4 & S4 & K4 & F4).
      * reflexivity.
      * eapply knot_shrink; [exact D|exact K|exact SH1|exact D1|]. intros y Py. destruct (K y Py) as (cy & _ & _ & _ & Y & _). cbn. unfold up. destruct (y =? o); [easy|congruence].
      * exists h3. repeat (split; [solve [auto|eapply shrink_trans; eauto]|]). intros F. apply F4. intros x c' t b X T SS NI.
        destruct (H1 _ _ X) as (c0 & X0 & _ & _ & E). rewrite E in T. eapply F; eauto.
Qed.

(** *** The collector *)
Lemma set_cyc_id h : set_cyc h (cyc h) = h.
Proof. now destruct h. Qed.

Record coll (h h' : hp) : Prop := {
  l_var : vars h' = vars h; l_no : nobj h' = nobj h;
  l_keep : forall x, 0 < orefs (vars h) x -> objs h' x = objs h x;
  l_obj : forall x c, objs h x = Some c -> exists c', objs h' x = Some c' /\ c_arr c' = c_arr c /\ c_cells c' = c_cells c;
  l_obj' : forall x, objs h' x <> None -> objs h x <> None;
  l_cel : forall a, cells h' a = cells h a \/
    (exists s q, cells h a = Some (CS s) /\ slots h s = Some (Slot (Some q) a) /\ orefs (vars h) q = 0 /\ cells h' a = Some CU);
  l_slo : forall s v, slots h' s = Some v -> slots h s = Some v
}.
Lemma coll_refl h : coll h h.
Proof. constructor; eauto. Qed.
Lemma coll_trans h1 h2 h3 : coll h1 h2 -> coll h2 h3 -> coll h1 h3.
Proof.
  intros [A1 A2 A3 A4 A5 A6 A7] [B1 B2 B3 B4 B5 B6 B7]. constructor; try congruence; eauto.
  - intros x X. rewrite B3; [auto|]. now rewrite A1.
  - intros x c X. destruct (A4 _ _ X) as (c1 & X1 & E1 & E2). destruct (B4 _ _ X1) as (c2 & X2 & E3 & E4). exists c2. repeat split; congruence.
  - intros a. destruct (A6 a) as [A|(s & q & A & S & Q & A')]; destruct (B6 a) as [B|(s' & q' & B & S' & Q' & B')].
    + left. congruence.
    + right. exists s', q'. rewrite A1 in Q'. rewrite <- A. eauto.
    + right. exists s, q. rewrite B. auto.
    + rewrite A' in B. discriminate.
Qed.

Lemma collect_slot_ok h o c s : Inv h -> Full h [] -> objs h o = Some c -> In s (c_slots c) -> orefs (vars h) o = 0 ->
  exists h' c', collect_slot h o s = Fine h' /\ Inv (set_cyc h' (if isnil (del s (c_slots c)) then del o (cyc h) else cyc h)) /\
    Full h' [] /\ cyc h' = cyc h /\ coll h h' /\ objs h' o = Some c' /\ c_slots c' = del s (c_slots c).
Proof.
  intros D F O I OR. destruct (d_ls _ _ _ D _ _ _ O I) as [_ [a SL]]. pose proof (F _ _ _ _ O I SL (fun z => z)) as C.
  pose proof (d_n _ _ _ D _ _ O) as N. pose proof (del_length s _ (d_nd _ _ _ D _ _ O) I) as L. set (l := del s (c_slots c)) in *.
  unfold collect_slot. rewrite SL. cbn [need s_cell]. rewrite O. cbn [need]. rewrite ring_remove_ok; [|auto|eapply list_alive; eauto]. cbn [obind]. fold l.
  unfold unref_block, unref_count. cbn [put_obj set_objs objs]. rewrite up_same. cbn [need with_slots c_n].
  destruct (c_n c) as [|n] eqn:EN; [lia|]. cbn [obind].
  set (h1 := if n =? 0 then _ else _).
  assert (H1 : objs h1 = up (up (objs h) o (Some (with_slots c l))) o (Some (with_n (with_slots c l) n)) /\ cells h1 = cells h /\ slots h1 = slots h /\ vars h1 = vars h /\
     cyc h1 = cyc h /\ nobj h1 = nobj h /\ ncell h1 = ncell h /\ nslot h1 = nslot h /\ zero h1 = if n =? 0 then zero h ++ [o] else zero h).
  { unfold h1. destruct (n =? 0); repeat split. }
  destruct H1 as (EO & EC & ES & EV & EY & E1 & E2 & E3 & EZ). clearbody h1.
  rewrite EC, C. cbn [need]. rewrite ES, SL. cbn [need].
  set (c' := Cont (c_arr c) (c_cells c) n l). set (h' := put_cell (put_slot h1 s None) a (Some CU)).
  assert (FO : forall x, objs h' x = up (objs h) o (Some c') x).
  { intros x. cbn. rewrite EO. unfold up. now destruct (x =? o). }
  assert (FC : forall x, cells h' x = up (cells h) a (Some CU) x) by (intros x; cbn; now rewrite EC).
  assert (FS : forall x, slots h' x = up (slots h) s None x) by (intros x; cbn; now rewrite ES).
  assert (FV : vars h' = vars h) by exact EV.
  assert (FZ : zero h' = if n =? 0 then zero h ++ [o] else zero h) by exact EZ.
  assert (FY : cyc h' = cyc h) by exact EY.
  assert (F1 : nobj h' = nobj h) by exact E1. assert (F2 : ncell h' = ncell h) by exact E2. assert (F3 : nslot h' = nslot h) by exact E3.
  clearbody h'.
  assert (OC : forall x cx, objs h' x = Some cx -> (x = o /\ cx = c') \/ (x <> o /\ objs h x = Some cx)).
  { intros x cx X. rewrite FO in X. unfold up in X. destruct (Nat.eqb_spec x o); [left|right]; split; auto. congruence. }
  assert (OB : forall x cx, objs h' x = Some cx -> exists c0, objs h x = Some c0 /\ c_arr cx = c_arr c0 /\ c_cells cx = c_cells c0).
  { intros x cx X. destruct (OC _ _ X) as [[-> ->]|[NE X']]; [exists c|exists cx]; auto. }
  assert (OB' : forall x c0, objs h x = Some c0 -> exists cx, objs h' x = Some cx /\ c_arr cx = c_arr c0 /\ c_cells cx = c_cells c0).
  { intros x c0 X. rewrite FO. unfold up. destruct (Nat.eqb_spec x o); [subst x; exists c'; assert (c0 = c) as -> by congruence; auto|eauto]. }
  assert (HO : forall p x, hold h' [] p x <-> hold h [] p x).
  { intros [p|] x; [|tauto]. split; intros [cx [X Y]].
    - destruct (OB _ _ X) as (c0 & X0 & _ & E). exists c0. split; [auto|congruence].
    - destruct (OB' _ _ X) as (c0 & X0 & _ & E). exists c0. split; [auto|congruence]. }
  assert (ST : forall x cx t, objs h' x = Some cx -> In t (c_slots cx) -> t <> s /\ exists c0, objs h x = Some c0 /\ In t (c_slots c0)).
  { intros x cx t X T. destruct (OC _ _ X) as [[-> ->]|[NE X']].
    - cbn in T. apply del_In in T. split; [tauto|]. exists c. tauto.
    - split; [|eauto]. intros ->. destruct (d_ls _ _ _ D _ _ _ X' T) as [_ [b B]]. congruence. }
  assert (CC : forall x t, cells h' x = Some (CS t) -> t <> s /\ cells h x = Some (CS t)).
  { intros x t X. rewrite FC in X. destruct (up_cases (cells h) a (Some CU) x) as [[E U]|[E U]]; rewrite U in X; [easy|]. split; [|auto].
    intros ->. destruct (d_cell _ _ _ D _ _ X (fun z => z)) as [q Q]. congruence. }
  exists h', c'. split; [reflexivity|]. split; [|split; [|split; [auto|split; [|split; [rewrite FO; apply up_same|reflexivity]]]]].
  - set (L0 := if isnil l then del o (cyc h) else cyc h). constructor; cbn [set_cyc objs cells slots vars zero cyc nobj ncell nslot].
    + intros x cx X. rewrite FV. destruct (OC _ _ X) as [[-> ->]|[NE X']]; [cbn; lia|apply (d_n _ _ _ D _ _ X')].
    + intros x cx X. destruct (OC _ _ X) as [[-> ->]|[NE X']]; [cbn; apply del_NoDup, (d_nd _ _ _ D _ _ O)|apply (d_nd _ _ _ D _ _ X')].
    + intros x cx t X T. split; [easy|]. destruct (ST _ _ _ X T) as (NE & c0 & X0 & T0). rewrite FS, up_other by auto. apply (d_ls _ _ _ D _ _ _ X0 T0).
    + intros t x b T NI. rewrite FS in T. destruct (up_cases (slots h) s None t) as [[E U]|[E U]]; rewrite U in T; [easy|].
      destruct (d_src _ _ _ D _ _ _ T NI) as [c0 [X0 T0]]. rewrite FO. destruct (up_cases (objs h) o (Some c') x) as [[E' U']|[E' U']]; rewrite U'; [|eauto].
      eexists. split; [reflexivity|]. cbn. apply del_In. split; [congruence|auto].
    + intros p x H. change (hold h' [] p x) in H. apply HO in H. destruct (d_hold _ _ _ D _ _ H) as [v V]. rewrite FC. unfold up. destruct (x =? a); eauto.
    + intros p q x H1 H2. change (hold h' [] p x) in H1. change (hold h' [] q x) in H2. apply HO in H1, H2. apply (d_disj _ _ _ D _ _ _ H1 H2).
    + constructor.
    + intros x cx X. destruct (OB _ _ X) as (c0 & X0 & _ & E). rewrite E. apply (d_ndc _ _ _ D _ _ X0).
    + intros x cx X. destruct (OB _ _ X) as (c0 & X0 & E0 & E). rewrite E, E0. apply (d_keys _ _ _ D _ _ X0).
    + intros x t X NI. apply CC in X. destruct X as [NE X]. rewrite FS, up_other by auto. apply (d_cell _ _ _ D _ _ X NI).
    + easy.
    + intros v V. rewrite FV in V. pose proof (d_var _ _ _ D v V) as W. destruct v as [| |x|]; auto. rewrite FO. unfold up. destruct (x =? o); [easy|auto].
    + rewrite FZ. destruct (n =? 0); [|apply (d_znd _ _ _ D)]. apply NoDup_app'; [apply (d_znd _ _ _ D)|repeat constructor; easy|].
      intros y Y [<-|[]]. apply (d_zero _ _ _ D) in Y. destruct Y as [c0 [X Y]]. assert (c0 = c) as -> by congruence. lia.
    + assert (NZ : ~ In o (zero h)). { intros Y. apply (d_zero _ _ _ D) in Y. destruct Y as [c0 [X Y]]. assert (c0 = c) as -> by congruence. lia. }
      intros x. rewrite FZ, FO. assert (ZX : In x (if n =? 0 then zero h ++ [o] else zero h) <-> In x (zero h) \/ (x = o /\ n = 0)).
      { destruct (Nat.eqb_spec n 0); [rewrite in_app_iff; cbn; intuition|]. intuition. }
      rewrite ZX, (d_zero _ _ _ D x). destruct (up_cases (objs h) o (Some c') x) as [[E U]|[E U]]; rewrite U.
      * subst x. split.
        -- intros [[c0 [X Y]]|[_ Y]]; [exfalso; apply NZ; apply (d_zero _ _ _ D); eauto|]. exists c'. auto.
        -- intros [c0 [X Y]]. injection X as <-. right. auto.
      * intuition.
    + unfold L0. destruct (isnil l); [apply del_NoDup|]; apply (d_cnd _ _ _ D).
    + intros x. assert (YX : In x L0 <-> In x (cyc h) /\ ~ (x = o /\ l = [])).
      { unfold L0. destruct l; cbn [isnil]; [rewrite del_In; intuition|]. split; [|tauto]. intros X. split; [auto|]. intros [_ E]. discriminate. }
      rewrite YX, (d_cyc _ _ _ D x), FO. destruct (up_cases (objs h) o (Some c') x) as [[E U]|[E U]]; rewrite U.
      * subst x. split.
        -- intros [_ NE]. exists c'. split; [auto|]. cbn. tauto.
        -- intros [c0 [X Y]]. injection X as <-. cbn in Y. split; [|tauto]. exists c. split; [auto|]. intros E. rewrite E in I. easy.
      * intuition.
    + intros x X. rewrite F1. apply (d_bo _ _ _ D). rewrite FO in X. unfold up in X. destruct (Nat.eqb_spec x o); [congruence|auto].
    + intros x X. rewrite F2. apply (d_bc _ _ _ D). rewrite FC in X. unfold up in X. destruct (Nat.eqb_spec x a); [congruence|auto].
    + intros x X. rewrite F3. apply (d_bs _ _ _ D). rewrite FS in X. unfold up in X. destruct (Nat.eqb_spec x s); [congruence|auto].
    + intros x X. assert (Y : cells h x <> None) by (rewrite FC in X; unfold up in X; destruct (Nat.eqb_spec x a); congruence).
      destruct (d_all _ _ _ D _ Y) as [p H]. exists p. now apply HO.
  - intros x cx t b X T S NI. destruct (ST _ _ _ X T) as (NE & c0 & X0 & T0). rewrite FS, up_other in S by auto.
    pose proof (F _ _ _ _ X0 T0 S NI) as B. rewrite FC, up_other; [auto|]. congruence.
  - constructor; auto.
    + intros x X. rewrite FO, up_other; [auto|]. intros ->. lia.
    + intros x X. destruct (objs h' x) as [cx|] eqn:E; [|easy]. destruct (OB _ _ E) as (c0 & Y & _). congruence.
    + intros x. rewrite FC. destruct (up_cases (cells h) a (Some CU) x) as [[E ->]|[E ->]]; [right|auto]. subst x. exists s, o. auto.
    + intros t v T. rewrite FS in T. unfold up in T. destruct (t =? s); [easy|auto].
Qed.

Lemma collect_slots_ok : forall l h o c, Inv h -> Full h [] -> objs h o = Some c -> c_slots c = l -> l <> [] -> orefs (vars h) o = 0 ->
  exists h', collect_slots h o l = Fine h' /\ Inv (set_cyc h' (del o (cyc h))) /\ Full h' [] /\ cyc h' = cyc h /\ coll h h'.
Proof.
  induction l as [|s l IH]; intros h o c D F O E NN OR; [easy|]. cbn [collect_slots].
  destruct (collect_slot_ok h o c s D F O) as (h1 & c1 & E1 & D1 & F1 & Y1 & L1 & O1 & S1); [rewrite E; now left|auto|].
  rewrite E1. cbn [obind].
  assert (DL : del s (c_slots c) = l).
  { pose proof (d_nd _ _ _ D _ _ O) as ND. rewrite E in *. inversion ND; subst. cbn. rewrite Nat.eqb_refl. cbn. now apply del_not_in. }
  rewrite DL in *. destruct l as [|t l].
  - exists h1. cbn. auto.
  - cbn [isnil] in D1. rewrite <- Y1, set_cyc_id in D1.
    destruct (IH h1 o c1 D1 F1 O1 S1) as (h2 & E2 & D2 & F2 & Y2 & L2); [easy|now rewrite (l_var _ _ L1)|].
    exists h2. split; [auto|]. split; [congruence|]. split; [auto|]. split; [congruence|]. eapply coll_trans; eauto.
Qed.

Lemma own_slots_all h o c : Inv h -> objs h o = Some c -> own_slots h o (c_slots c) = c_slots c.
Proof.
  intros D O. unfold own_slots. assert (A : forall s, In s (c_slots c) -> (match slots h s with Some (Slot (Some o') _) => o' =? o | _ => false end) = true).
  { intros s S. destruct (d_ls _ _ _ D _ _ _ O S) as [_ [a E]]. rewrite E. apply Nat.eqb_refl. }
  induction (c_slots c) as [|s l IH]; cbn; [auto|]. rewrite (A s (or_introl eq_refl)). f_equal. apply IH. intros t T. apply A. now right.
Qed.

Lemma collect_ok : forall f l1 l2 h, length l2 < f -> Inv h -> Full h [] -> cyc h = l1 ++ l2 -> (forall o, In o l1 -> 0 < orefs (vars h) o) ->
  exists h', collect f (length l1) h = Fine h' /\ Inv h' /\ Full h' [] /\ coll h h' /\ (forall o, In o (cyc h') -> 0 < orefs (vars h) o).
Proof.
  induction f as [|f IH]; intros l1 l2 h LF D F Y A; [lia|]. cbn [collect]. destruct l2 as [|o l2].
  - rewrite app_nil_r in Y. assert (nth_error (cyc h) (length l1) = None) as -> by (apply nth_error_None; rewrite Y; lia).
    exists h. rewrite Y. repeat (split; [solve [auto|apply coll_refl]|]). auto.
  - assert (nth_error (cyc h) (length l1) = Some o) as -> by (rewrite Y, nth_error_app2, Nat.sub_diag by lia; reflexivity).
    assert (IO : In o (cyc h)) by (rewrite Y; apply in_app_iff; right; now left). apply (d_cyc _ _ _ D) in IO. destruct IO as [c [O NS]].
    rewrite O. cbn [need]. assert (forallb (alive h) (c_slots c) = true) as -> by (apply forallb_forall; eapply list_alive; eauto).
    rewrite (own_slots_all _ _ _ D O). assert (isnil (c_slots c) = false) as -> by (destruct (c_slots c); easy). cbn [negb andb].
    pose proof (d_n _ _ _ D _ _ O) as N. destruct (Nat.eqb_spec (length (c_slots c)) (c_n c)) as [EQ|NE].
    + destruct (collect_slots_ok (c_slots c) h o c D F O eq_refl NS) as (h1 & E1 & D1 & F1 & Y1 & L1); [lia|]. rewrite E1. cbn [obind].
      assert (M : mem o (cyc h1) = true) by (apply mem_In; rewrite Y1, Y; apply in_app_iff; right; now left).
      unfold cyc_erase. rewrite M. cbn [obind]. rewrite Y1.
      assert (DY : del o (cyc h) = l1 ++ l2).
      { pose proof (d_cnd _ _ _ D) as ND. rewrite Y in *. unfold del. rewrite filter_app. cbn. rewrite Nat.eqb_refl. cbn.
        apply NoDup_remove_2 in ND. f_equal; apply del_not_in; intros X; apply ND, in_app_iff; auto. }
      rewrite DY in *.
      destruct (IH l1 l2 (set_cyc h1 (l1 ++ l2))) as (h2 & E2 & D2 & F2 & L2 & A2); [cbn in LF; lia|auto|exact F1|reflexivity| |].
      * intros x X. cbn [set_cyc vars]. rewrite (l_var _ _ L1). auto.
      * exists h2. split; [auto|]. split; [auto|]. split; [auto|].
        assert (LL : coll h (set_cyc h1 (l1 ++ l2))) by (destruct L1; constructor; auto).
        split; [eapply coll_trans; eauto|]. intros x X. specialize (A2 x X). cbn [set_cyc vars] in A2. now rewrite (l_var _ _ L1) in A2.
    + destruct (IH (l1 ++ [o]) l2 h) as (h2 & E2 & R); [cbn in LF; lia|auto|auto|rewrite <- app_assoc; exact Y| |].
      * intros x X. apply in_app_iff in X. destruct X as [X|[<-|[]]]; [auto|lia].
      * rewrite app_length in E2. cbn in E2. rewrite Nat.add_1_r in E2. exists h2. auto.
Qed.

Lemma collect_all_ok h : Inv h -> Full h [] ->
  exists h', collect_all h = Fine h' /\ Inv h' /\ Full h' [] /\ coll h h' /\ (forall o, In o (cyc h') -> 0 < orefs (vars h) o).
Proof. intros D F. apply (collect_ok _ [] (cyc h)); auto. easy. Qed.

Lemma rev_skipn_split {A} n (l : list A) : firstn n l ++ rev (rev (skipn n l)) = l.
Proof. now rewrite rev_involutive, firstn_skipn. Qed.

Lemma clear_ok P h n : Inv h -> Full h [] -> knot P h [] -> (forall o, P o -> 0 < orefs (vars h) o) ->
  exists h1 h', collect_all h = Fine h1 /\ clear h n = Fine h' /\ Inv h1 /\ Inv h' /\ Full h' [] /\ vars h' = firstn n (vars h) /\ zero h' = [] /\ nobj h' = nobj h /\
    coll h h1 /\ shrink h' h1 /\ knot P h' [] /\ (forall o, In o (cyc h1) -> 0 < orefs (vars h) o).
Proof.
  intros D F K PO. destruct (collect_all_ok h D F) as (h1 & E1 & D1 & F1 & L1 & A1). unfold clear. rewrite E1. cbn [obind].
  assert (K1 : knot P h1 []).
  { intros o Po. destruct (K o Po) as (c & s & a & p & O & I & C & Pp & H). exists c, s, a, p.
    split; [rewrite (l_keep _ _ L1); auto|]. split; [auto|]. split; [|split; [auto|]].
    - destruct (l_cel _ _ L1 a) as [E|(s' & q & C' & S' & Q & _)]; [congruence|]. exfalso. assert (s' = s) as -> by congruence.
      destruct (d_ls _ _ _ D _ _ _ O I) as [_ [b B]]. rewrite B in S'. injection S' as <- _. specialize (PO o Po). lia.
    - destruct H as [cp [X Y]]. exists cp. rewrite (l_keep _ _ L1); auto. }
  destruct (clear_vars_ok P (rev (skipn n (vars h1))) h1 (firstn n (vars h1)) D1) as (h2 & E2 & D2 & V2 & N2 & S2 & K2 & F2); [symmetry; apply rev_skipn_split|auto|].
  rewrite E2. cbn [obind].
  destruct (sweep_list_ok P (zero h2) h2 D2 eq_refl K2) as (h3 & E3 & D3 & Z3 & V3 & N3 & S3 & K3 & F3).
  exists h1, h3. split; [auto|]. split; [exact E3|]. split; [auto|]. split; [auto|]. split; [auto|]. split; [rewrite V3, V2, (l_var _ _ L1); auto|].
  split; [auto|]. split; [rewrite N3, N2; apply (l_no _ _ L1)|]. split; [auto|]. split; [eapply shrink_trans; eauto|]. split; auto.
Qed.

(** *** Counting references *)
Definition is_ref (h : hp) (o a : nat) : bool := match shown_cell h a with SO o' => o' =? o | _ => false end.
Definition ref_cells (h : hp) (o p : nat) : list nat :=
  match objs h p with Some c => filter (is_ref h o) (map snd (c_cells c)) | None => [] end.
Lemma filter_map_snd {A B} (f : B -> bool) (l : list (A * B)) : filter f (map snd l) = map snd (filter (fun x => f (snd x)) l).
Proof. induction l as [|[a b] l IH]; cbn; [auto|]. destruct (f b); cbn; now rewrite IH. Qed.
Lemma held_by_len h p o : held_by h p o = length (ref_cells h o p).
Proof. unfold held_by, ref_cells. destruct (objs h p); [|auto]. rewrite filter_map_snd, map_length. reflexivity. Qed.
Definition all_refs (h : hp) (o : nat) : list nat := flat_map (ref_cells h o) (seq 0 (nobj h)).
Lemma flat_map_len {A B} (f : A -> list B) l : length (flat_map f l) = list_sum (map (fun x => length (f x)) l).
Proof. induction l as [|a l IH]; cbn; [auto|]. now rewrite app_length, IH. Qed.
Lemma elem_refs_len h o : elem_refs h o = length (all_refs h o).
Proof. unfold elem_refs, all_refs. rewrite flat_map_len. f_equal. apply map_ext. intros p. apply held_by_len. Qed.
Lemma In_refs h o p a : In a (ref_cells h o p) <-> hold h [] (Some p) a /\ is_ref h o a = true.
Proof.
  unfold ref_cells, hold. destruct (objs h p) as [c|].
  - rewrite filter_In. split; [intros [A B]; split; [eauto|auto]|]. intros [[c0 [E A]] B]. injection E as <-. auto.
  - split; [easy|]. intros [[c0 [E _]] _]. discriminate.
Qed.
Lemma is_ref_slot h o a : Inv h -> is_ref h o a = true -> exists s, cells h a = Some (CS s) /\ slots h s = Some (Slot (Some o) a).
Proof.
  intros D R. unfold is_ref, shown_cell in R. destruct (cells h a) as [[| |s]|] eqn:C; try discriminate.
  destruct (d_cell _ _ _ D _ _ C (fun z => z)) as [q Q]. rewrite Q in R. apply Nat.eqb_eq in R. subst q. eauto.
Qed.
Lemma is_ref_of h o a s : cells h a = Some (CS s) -> slots h s = Some (Slot (Some o) a) -> is_ref h o a = true.
Proof. intros C S. unfold is_ref, shown_cell. rewrite C, S. apply Nat.eqb_refl. Qed.
Lemma NoDup_flat_map {A B} (f : A -> list B) l :
  NoDup l -> (forall x, In x l -> NoDup (f x)) -> (forall x y z, In z (f x) -> In z (f y) -> x = y) -> NoDup (flat_map f l).
Proof.
  induction l as [|a l IH]; intros ND A1 A2; cbn; [constructor|]. inversion ND; subst. apply NoDup_app'.
  - apply A1. now left.
  - apply IH; auto. intros x X. apply A1. now right.
  - intros z Z1 Z2. apply in_flat_map in Z2. destruct Z2 as [y [Y Z2]]. rewrite (A2 _ _ _ Z1 Z2) in H1. easy.
Qed.
Lemma all_refs_nd h o : Inv h -> NoDup (all_refs h o).
Proof.
  intros D. apply NoDup_flat_map; [apply seq_NoDup| |].
  - intros p _. unfold ref_cells. destruct (objs h p) eqn:E; [|constructor]. apply NoDup_filter, (d_ndc _ _ _ D _ _ E).
  - intros x y z X Y. apply In_refs in X, Y. assert (Some x = Some y) by (eapply (d_disj _ _ _ D); [apply X|apply Y]). congruence.
Qed.
Definition slot_in (h : hp) (a : nat) : nat := match cells h a with Some (CS s) => s | _ => 0 end.
Lemma NoDup_map_on {A B} (f : A -> B) l : NoDup l -> (forall x y, In x l -> In y l -> f x = f y -> x = y) -> NoDup (map f l).
Proof.
  induction l as [|a l IH]; intros ND F; cbn; [constructor|]. inversion ND; subst. constructor.
  - intros I. apply in_map_iff in I. destruct I as [b [E Ib]]. rewrite (F b a) in Ib; cbn; auto.
  - apply IH; auto. intros x y X Y. apply F; now right.
Qed.
Lemma all_refs_slot h o a : Inv h -> In a (all_refs h o) -> exists s, cells h a = Some (CS s) /\ slots h s = Some (Slot (Some o) a).
Proof. intros D I. apply in_flat_map in I. destruct I as [p [_ I]]. apply In_refs in I. apply is_ref_slot; tauto. Qed.
Lemma slot_in_nd h o : Inv h -> NoDup (map (slot_in h) (all_refs h o)).
Proof.
  intros D. apply NoDup_map_on; [now apply all_refs_nd|]. intros x y X Y E.
  destruct (all_refs_slot _ _ _ D X) as (s & C & S). destruct (all_refs_slot _ _ _ D Y) as (t & C' & S').
  unfold slot_in in E. rewrite C, C' in E. congruence.
Qed.
Lemma count_low h o c : Inv h -> objs h o = Some c -> var_refs h o + elem_refs h o <= c_n c.
Proof.
  intros D O. rewrite (d_n _ _ _ D _ _ O), elem_refs_len. change (var_refs h o) with (orefs (vars h) o).
  enough (length (map (slot_in h) (all_refs h o)) <= length (c_slots c)) by (rewrite map_length in *; lia).
  apply NoDup_incl_length; [now apply slot_in_nd|]. intros s I. apply in_map_iff in I. destruct I as [a [E I]].
  destruct (all_refs_slot _ _ _ D I) as (t & C & S). unfold slot_in in E. rewrite C in E. subst t.
  destruct (d_src _ _ _ D _ _ _ S (fun z => z)) as [c0 [X Y]]. congruence.
Qed.
Lemma count_exact h o c : Inv h -> Full h [] -> objs h o = Some c -> c_n c = var_refs h o + elem_refs h o.
Proof.
  intros D F O. pose proof (count_low _ _ _ D O) as L. rewrite (d_n _ _ _ D _ _ O), elem_refs_len in *. change (var_refs h o) with (orefs (vars h) o) in *.
  enough (length (c_slots c) <= length (map (slot_in h) (all_refs h o))) by (rewrite map_length in *; lia).
  apply NoDup_incl_length; [apply (d_nd _ _ _ D _ _ O)|]. intros s I. destruct (d_ls _ _ _ D _ _ _ O I) as [_ [a S]].
  pose proof (F _ _ _ _ O I S (fun z => z)) as C. apply in_map_iff. exists a. split; [unfold slot_in; now rewrite C|].
  assert (NC : cells h a <> None) by congruence. destruct (d_all _ _ _ D _ NC) as [[p|] H]; [|easy].
  apply in_flat_map. exists p. split.
  - apply in_seq. destruct H as [cp [P _]]. assert (objs h p <> None) by congruence. pose proof (d_bo _ _ _ D _ H). lia.
  - apply In_refs. split; [auto|]. eapply is_ref_of; eauto.
Qed.
Lemma held_pos h p o : 0 < held_by h p o <-> exists a, hold h [] (Some p) a /\ is_ref h o a = true.
Proof.
  rewrite held_by_len. split.
  - destruct (ref_cells h o p) as [|a l] eqn:E; cbn; [lia|]. intros _. exists a. apply In_refs. rewrite E. now left.
  - intros [a A]. apply In_refs in A. destruct (ref_cells h o p); [easy|cbn; lia].
Qed.
Lemma elem_pos h o : 0 < elem_refs h o -> exists p, 0 < held_by h p o.
Proof.
  unfold elem_refs. induction (seq 0 (nobj h)) as [|p l IH]; cbn; [lia|]. intros H. destruct (held_by h p o) eqn:E; [apply IH; auto|]. exists p. lia.
Qed.

(** What is left when there is nothing to sweep. *)
Lemma swept h o : Inv h -> Full h [] -> zero h = [] -> objs h o <> None -> 0 < var_refs h o + elem_refs h o.
Proof.
  intros D F Z O. destruct (objs h o) as [c|] eqn:E; [|easy]. rewrite <- (count_exact _ _ _ D F E).
  destruct (c_n c) eqn:N; [|lia]. exfalso. assert (In o (zero h)) by (apply (d_zero _ _ _ D); eauto). rewrite Z in H. easy.
Qed.
Lemma shrink_held h' h p o : Inv h' -> shrink h' h -> 0 < held_by h' p o -> 0 < held_by h p o.
Proof.
  intros D S H. apply held_pos in H. destruct H as [a [[c [C I]] R]]. apply held_pos. exists a.
  destruct (k_obj _ _ S _ _ C) as (c0 & C0 & _ & E). split; [exists c0; split; [auto|congruence]|].
  destruct (is_ref_slot _ _ _ D R) as (s & X & Y). apply (is_ref_of _ _ _ s); [now apply (k_cel _ _ S)|now apply (k_slo _ _ S)].
Qed.
Lemma coll_held h h' p o : Inv h' -> coll h h' -> 0 < held_by h' p o -> 0 < held_by h p o.
Proof.
  intros D L H. apply held_pos in H. destruct H as [a [[c [C I]] R]]. apply held_pos. exists a.
  assert (N : objs h p <> None) by (apply (l_obj' _ _ L); congruence). destruct (objs h p) as [c0|] eqn:C0; [|easy].
  destruct (l_obj _ _ L _ _ C0) as (c1 & C1 & _ & E). split; [exists c0; split; [auto|]; congruence|].
  destruct (is_ref_slot _ _ _ D R) as (s & X & Y). apply (is_ref_of _ _ _ s); [|now apply (l_slo _ _ L)].
  destruct (l_cel _ _ L a) as [A|(s' & q & _ & _ & _ & A)]; congruence.
Qed.
Lemma gone_cells h : Inv h -> (forall o, objs h o = None) -> forall a, cells h a = None.
Proof.
  intros D N a. destruct (cells h a) eqn:C; [|auto]. assert (X : cells h a <> None) by congruence.
  destruct (d_all _ _ _ D _ X) as [[p|] H]; [|easy]. destruct H as [cq [E _]]. rewrite N in E. discriminate.
Qed.
