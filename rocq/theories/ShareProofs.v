From Coq Require Import List ZArith Bool Lia Arith Permutation.
From Verif Require Import Base StringModel ListModel ListSpec ListProofs ShareModel ShareSpec.
Import ListNotations.
Local Open Scope nat_scope.

Lemma upd1_eq {A} (f : nat -> A) k v : upd1 f k v k = v.
Proof. unfold upd1. now rewrite Nat.eqb_refl. Qed.
Lemma upd1_ne {A} (f : nat -> A) k v x : x <> k -> upd1 f k v x = f x.
Proof. intros H. unfold upd1. destruct (Nat.eqb_spec x k); congruence. Qed.

(** *** Counting *)
Notation cnt := (fun l o => count_occ Nat.eq_dec l o).
Definition contrib (h : mgr) (dy : list nat) (o p : nat) : nat :=
  if mem p dy then 0 else match objs h p with Some ob => count_occ Nat.eq_dec (o_refs ob) o | None => 0 end.
Definition heldx (h : mgr) (dy : list nat) (o : nat) : nat := list_sum (map (contrib h dy o) (seq 0 (onext h))).
Definition tot (h : mgr) (v : nat -> nat) (pend dy : list nat) (o : nat) : nat :=
  v o + heldx h dy o + count_occ Nat.eq_dec pend o.

Lemma mem_in o l : mem o l = true <-> In o l.
Proof.
  unfold mem. rewrite existsb_exists. split.
  - intros (x & H & E). apply Nat.eqb_eq in E. now subst.
  - intros H. exists o. split; auto. apply Nat.eqb_refl.
Qed.
Lemma mem_out o l : mem o l = false <-> ~ In o l.
Proof. rewrite <- mem_in. destruct (mem o l); split; congruence. Qed.

Lemma sum_ext (f g : nat -> nat) l : (forall p, In p l -> f p = g p) -> list_sum (map f l) = list_sum (map g l).
Proof. induction l as [|a l IH]; intros H; auto. simpl. rewrite H by (simpl; auto). rewrite IH; auto. intros; apply H; simpl; auto. Qed.
Lemma sum_change (f g : nat -> nat) l r : NoDup l -> In r l -> (forall p, p <> r -> f p = g p) ->
  list_sum (map f l) + g r = list_sum (map g l) + f r.
Proof.
  induction l as [|a l IH]; intros Hn Hi H; [destruct Hi|]. inversion Hn; subst.
  simpl. destruct Hi as [->|Hi].
  - rewrite (sum_ext f g l); [lia|]. intros p Hp. apply H. intros ->; auto.
  - assert (a <> r) by (intros ->; auto). rewrite (H a) by auto. specialize (IH H3 Hi H). lia.
Qed.
Lemma heldx_change h h' dy dy' o r : onext h' = onext h -> r < onext h ->
  (forall p, p <> r -> contrib h' dy' o p = contrib h dy o p) ->
  heldx h' dy' o + contrib h dy o r = heldx h dy o + contrib h' dy' o r.
Proof.
  intros E Hr H. unfold heldx. rewrite E. apply sum_change; auto.
  - apply seq_NoDup.
  - apply in_seq. lia.
Qed.
Lemma heldx_same h h' dy dy' o : onext h' = onext h -> (forall p, contrib h' dy' o p = contrib h dy o p) -> heldx h' dy' o = heldx h dy o.
Proof. intros E H. unfold heldx. rewrite E. apply sum_ext; auto. Qed.
Lemma held_heldx h o : held h o = heldx h [] o.
Proof. reflexivity. Qed.

(** Live objects not dying. *)
Definition alive (h : mgr) (dy : list nat) : nat :=
  list_sum (map (fun p => if mem p dy then 0 else match objs h p with Some _ => 1 | None => 0 end) (seq 0 (onext h))).

(** *** The invariant *)
Record Inv (h : mgr) (v pl : nat -> nat) (pend dy : list nat) (L : nat -> list nat) : Prop := {
  i_ring : forall b, inv (view h b) (L b);
  i_disj : forall b b' n, In n (L b) -> In n (L b') -> b = b';
  i_list : forall b n, In n (L b) -> exists i, nodes h n = Some i /\ n_sh i = 0%Z /\ pl (n_obj i) = b /\ ~ In (n_obj i) dy;
  i_det : forall n, (forall b, ~ In n (L b)) -> detached (lnk h) n;
  i_node : forall n i, nodes h n = Some i -> n < nnext h /\ exists ob, objs h (n_obj i) = Some ob /\ o_sp ob = Some n;
  i_obj : forall o ob n, objs h o = Some ob -> o_sp ob = Some n -> o_const ob = false /\
     exists i, nodes h n = Some i /\ n_obj i = o /\ n_sh i = Z.of_nat (tot h v pend dy o) /\ (Z.of_nat (tot h v pend dy o) < 65536)%Z /\
       (tot h v pend dy o = 0 -> ~ In o dy -> In n (L (pl o)));
  i_nosp : forall o, (objs h o = None \/ exists ob, objs h o = Some ob /\ o_sp ob = None) -> tot h v pend dy o = 0;
  i_bound : forall o ob, objs h o = Some ob -> o < onext h;
  i_dy : NoDup dy /\ forall o, In o dy -> tot h v pend dy o = 0 /\ exists ob n, objs h o = Some ob /\ o_sp ob = Some n }.

Lemma inv_other h h' b l : (forall k, In k l -> prev (lnk h') k = prev (lnk h) k /\ next (lnk h') k = next (lnk h) k) ->
  bfst h' b = bfst h b -> blst h' b = blst h b -> inv (view h b) l -> inv (view h' b) l.
Proof.
  intros H E1 E2 [A B C D]. constructor; unfold view in *; cbn [first last heap] in *; auto; try congruence.
  destruct l as [|x t]; auto. unfold ring in *.
  apply chain_frame with (lnk h); auto.
  - intros a Ha. apply H. change (x :: t ++ [x]) with ((x :: t) ++ [x]) in Ha. rewrite removelast_last in Ha. auto.
  - intros a Ha. cbn [tl] in Ha. apply in_app_iff in Ha. apply H. simpl in *. tauto.
Qed.

(** *** Inserting and detaching *)
Definition lput (L : nat -> list nat) (b : nat) (l : list nat) := upd1 L b l.
Lemma insert_rings h L b n :
  (forall b, inv (view h b) (L b)) -> (forall b, ~ In n (L b)) -> detached (lnk h) n ->
  (forall b b' n, In n (L b) -> In n (L b') -> b = b') ->
  (forall n, (forall b, ~ In n (L b)) -> detached (lnk h) n) ->
  exists c, insert_node h b n = Ok (put_view h b c) /\
   (forall b', inv (view (put_view h b c) b') (lput L b (L b ++ [n]) b')) /\
   (forall n', (forall b', ~ In n' (lput L b (L b ++ [n]) b')) -> detached (heap c) n').
Proof.
  intros HR Hn [D1 D2] HD HO. unfold insert_node. rewrite D1, D2.
  destruct (ring_insert_ok (view h b) (L b) n (HR b) (Hn b)) as (c & E & I & F).
  rewrite E. cbn [of_outcome rbind]. exists c. split; auto. split.
  - intros b'. unfold lput. destruct (Nat.eq_dec b' b) as [->|Hb].
    + rewrite upd1_eq. destruct I as [I1 I2 I3 I4].
      constructor; unfold view, put_view; cbn [first last heap lnk bfst blst]; rewrite ?upd1_eq; auto.
    + rewrite upd1_ne by auto. apply inv_other with h; auto.
      * intros k Hk. cbn. apply F. rewrite in_app_iff. intros [Hk2|[->|[]]].
        { apply Hb. eapply HD; eauto. }
        { eapply Hn; eauto. }
      * cbn. now rewrite upd1_ne.
      * cbn. now rewrite upd1_ne.
  - intros n' H'. assert (Hx : ~ In n' (L b ++ [n])).
    { specialize (H' b). unfold lput in H'. now rewrite upd1_eq in H'. }
    destruct (F n' Hx) as [F1 F2]. unfold detached. rewrite F1, F2. apply HO.
    intros b' Hb'. apply (H' b'). unfold lput. destruct (Nat.eq_dec b' b) as [->|].
    + rewrite upd1_eq. apply in_app_iff; auto.
    + now rewrite upd1_ne.
Qed.
Lemma detach_rings h L b l1 n l2 :
  (forall b, inv (view h b) (L b)) -> L b = l1 ++ n :: l2 ->
  (forall b b' n, In n (L b) -> In n (L b') -> b = b') ->
  (forall b n, In n (L b) -> nodes h n <> None) ->
  (forall n, (forall b, ~ In n (L b)) -> detached (lnk h) n) ->
  exists c, detach_node h b n = Ok (put_view h b c) /\
   (forall b', inv (view (put_view h b c) b') (lput L b (l1 ++ l2) b')) /\
   (forall n', (forall b', ~ In n' (lput L b (l1 ++ l2) b')) -> detached (heap c) n').
Proof.
  intros HR HL HD HN HO. unfold detach_node.
  pose proof (HR b) as HRb. rewrite HL in HRb.
  destruct (ring_remove_ok true _ _ _ _ HRb) as (c & E & I & De & F).
  destruct (ring_member (lnk h) (L b) n) as (p & q & Hp & Hq & Ip & Iq).
  { rewrite HL. apply (inv_ring _ _ HRb). }
  { rewrite HL. apply in_app_iff; simpl; auto. }
  rewrite Hp, Hq. unfold get_node.
  destruct (nodes h q) eqn:Eq; [|exfalso; eapply HN; [exact Iq|auto]].
  destruct (nodes h p) eqn:Ep; [|exfalso; eapply HN; [exact Ip|auto]].
  cbn [ofo rbind]. rewrite E. cbn [of_outcome rbind]. exists c. split; auto. split.
  - intros b'. unfold lput. destruct (Nat.eq_dec b' b) as [->|Hb].
    + rewrite upd1_eq. destruct I as [I1 I2 I3 I4].
      constructor; unfold view, put_view; cbn [first last heap lnk bfst blst]; rewrite ?upd1_eq; auto.
    + rewrite upd1_ne by auto. apply inv_other with h; auto.
      * intros k Hk. cbn. apply F. intros Hk2. apply Hb. eapply HD; [eauto|]. now rewrite HL.
      * cbn. now rewrite upd1_ne.
      * cbn. now rewrite upd1_ne.
  - intros n' H'. destruct (Nat.eq_dec n' n) as [->|Hn]; auto.
    assert (Hx : ~ In n' (l1 ++ n :: l2)).
    { specialize (H' b). unfold lput in H'. rewrite upd1_eq in H'. rewrite in_app_iff in *. simpl. intuition. }
    destruct (F n' Hx) as [F1 F2]. unfold detached. rewrite F1, F2. apply HO.
    intros b' Hb'. destruct (Nat.eq_dec b' b) as [->|].
    + now rewrite HL in Hb'.
    + apply (H' b'). unfold lput. now rewrite upd1_ne.
Qed.

(** *** Releasing a reference *)
Lemma tot_cons h v pend dy r o : tot h v (r :: pend) dy o = tot h v pend dy o + (if Nat.eq_dec r o then 1 else 0).
Proof. unfold tot. simpl. destruct (Nat.eq_dec r o); lia. Qed.
Lemma contrib_mark h dy r o p : p <> r -> contrib h (r :: dy) o p = contrib h dy o p.
Proof. intros H. unfold contrib, mem. simpl. destruct (Nat.eqb_spec p r); [congruence|]. reflexivity. Qed.
Lemma contrib_dy h dy r o : In r dy -> contrib h dy o r = 0.
Proof. intros H. unfold contrib. apply mem_in in H. now rewrite H. Qed.
Lemma tot_mark h v pend dy r ob o : objs h r = Some ob -> ~ In r dy -> r < onext h ->
  tot h v (o_refs ob ++ pend) (r :: dy) o = tot h v pend dy o.
Proof.
  intros E Hd Hb. unfold tot. rewrite count_occ_app.
  pose proof (heldx_change h h dy (r :: dy) o r eq_refl Hb (contrib_mark h dy r o)) as H.
  rewrite (contrib_dy h (r :: dy)) in H by (simpl; auto).
  unfold contrib at 1 in H. apply mem_out in Hd. rewrite Hd, E in H. lia.
Qed.
Lemma alive_mark h dy r ob : objs h r = Some ob -> ~ In r dy -> r < onext h -> S (alive h (r :: dy)) = alive h dy.
Proof.
  intros E Hd Hb. unfold alive.
  pose proof (sum_change (fun p => if mem p (r :: dy) then 0 else match objs h p with Some _ => 1 | None => 0 end)
     (fun p => if mem p dy then 0 else match objs h p with Some _ => 1 | None => 0 end) (seq 0 (onext h)) r) as H.
  cbv beta in H. assert (Hm : mem r (r :: dy) = true) by (apply mem_in; simpl; auto).
  apply mem_out in Hd. rewrite Hm, Hd, E in H.
  rewrite <- Nat.add_1_r, H.
  - lia.
  - apply seq_NoDup.
  - apply in_seq; lia.
  - intros p Hp. unfold mem. simpl. destruct (Nat.eqb_spec p r); [congruence|]. reflexivity.
Qed.
Lemma sum_le (f g : nat -> nat) l : (forall p, f p <= g p) -> list_sum (map f l) <= list_sum (map g l).
Proof. intros H. induction l as [|a l IH]; simpl; auto. specialize (H a). lia. Qed.
Lemma alive_sub h h' dy : onext h' = onext h -> (forall p ob, objs h' p = Some ob -> exists ob', objs h p = Some ob') -> alive h' dy <= alive h dy.
Proof.
  intros E H. unfold alive. rewrite E. apply sum_le. intros p. destruct (mem p dy); auto.
  destruct (objs h' p) eqn:Ep; [|lia]. apply H in Ep as (ob' & ->). auto.
Qed.

Lemma tot_sub h h' v pend dy o : onext h' = onext h -> (forall p ob, objs h' p = Some ob -> objs h p = Some ob) ->
  tot h' v pend dy o <= tot h v pend dy o.
Proof.
  intros E H. unfold tot, heldx. rewrite E. apply Nat.add_le_mono_r, Nat.add_le_mono_l, sum_le.
  intros p. unfold contrib. destruct (mem p dy); auto. destruct (objs h' p) eqn:Ep; [|lia]. apply H in Ep. now rewrite Ep.
Qed.

Lemma held_is_live h v pl pend dy L o : Inv h v pl pend dy L -> 0 < tot h v pend dy o ->
  exists ob n i, objs h o = Some ob /\ o_sp ob = Some n /\ nodes h n = Some i /\ n_obj i = o /\ o_const ob = false /\
    n_sh i = Z.of_nat (tot h v pend dy o) /\ ~ In o dy /\ (forall b, ~ In n (L b)) /\ o < onext h.
Proof.
  intros I H. destruct (objs h o) as [ob|] eqn:E.
  2:{ rewrite (i_nosp _ _ _ _ _ _ I o) in H by auto. lia. }
  destruct (o_sp ob) as [n|] eqn:En.
  2:{ rewrite (i_nosp _ _ _ _ _ _ I o) in H by eauto. lia. }
  destruct (i_obj _ _ _ _ _ _ I _ _ _ E En) as (Hc & i & A1 & A2 & A3 & A4 & A5).
  exists ob, n, i. repeat split; auto.
  - intros Hd. destruct (i_dy _ _ _ _ _ _ I) as (_ & Hd'). apply Hd' in Hd as (Hz & _). lia.
  - intros b Hb. apply (i_list _ _ _ _ _ _ I) in Hb as (i' & B1 & B2 & _). rewrite A1 in B1. injection B1 as <-. lia.
  - eapply i_bound; eauto.
Qed.

(** The count of one node changes, and with it who refers to its object. *)
Lemma recount h v pl pend dy L n i ob v' pend' k :
  Inv h v pl pend dy L -> objs h (n_obj i) = Some ob -> o_sp ob = Some n -> nodes h n = Some i ->
  (forall b, ~ In n (L b)) ->
  (forall o, o <> n_obj i -> tot h v' pend' dy o = tot h v pend dy o) ->
  k = tot h v' pend' dy (n_obj i) -> 0 < k -> (Z.of_nat k < 65536)%Z -> ~ In (n_obj i) dy ->
  Inv (set_node h n (Some (mkninfo (Z.of_nat k) (n_obj i) (n_cr i)))) v' pl pend' dy L.
Proof.
  intros I Eo Es En HL Ht Hk K0 K1 Hd. set (r := n_obj i) in *.
  assert (TT : forall o, tot (set_node h n (Some (mkninfo (Z.of_nat k) r (n_cr i)))) v' pend' dy o = tot h v' pend' dy o) by reflexivity.
  constructor.
  - apply (i_ring _ _ _ _ _ _ I).
  - apply (i_disj _ _ _ _ _ _ I).
  - intros b m Hm. destruct (i_list _ _ _ _ _ _ I _ _ Hm) as (i' & A). exists i'. cbn.
    rewrite upd1_ne; auto. intros ->. eapply HL; eauto.
  - apply (i_det _ _ _ _ _ _ I).
  - intros m i' Hm. cbn in *. destruct (Nat.eq_dec m n) as [->|Hne].
    + rewrite upd1_eq in Hm. injection Hm as <-. cbn. split; [|eauto]. eapply i_node in En; eauto. tauto.
    + rewrite upd1_ne in Hm by auto. eapply i_node; eauto.
  - intros o ob' m Ho Hm. rewrite TT. cbn in *. destruct (Nat.eq_dec o r) as [->|Hne].
    + rewrite Eo in Ho. injection Ho as <-. rewrite Es in Hm. injection Hm as <-.
      split. { eapply i_obj; eauto. }
      eexists. rewrite upd1_eq. split; [reflexivity|]. cbn. rewrite <- Hk. repeat split; auto. lia.
    + destruct (i_obj _ _ _ _ _ _ I _ _ _ Ho Hm) as (Hc & i' & A1 & A2 & A). split; auto.
      exists i'. rewrite upd1_ne. 2:{ intros ->. apply Hne. rewrite A1 in En. injection En as ->. unfold r. auto. }
      rewrite Ht by auto. auto.
  - intros o Ho. rewrite TT. cbn in Ho. destruct (Nat.eq_dec o r) as [->|Hne].
    + rewrite Eo in Ho. destruct Ho as [Ho|(ob' & Ho & Hs)]; congruence.
    + rewrite Ht by auto. eapply i_nosp; eauto.
  - apply (i_bound _ _ _ _ _ _ I).
  - destruct (i_dy _ _ _ _ _ _ I) as (D1 & D2). split; auto. intros o Ho. rewrite TT.
    rewrite Ht. 2:{ intros ->; auto. } exact (D2 o Ho).
Qed.

(** An object whose last reference goes starts dying; what it holds is pending release. *)
Lemma start_dying h v pl r pend dy L n i ob :
  Inv h v pl (r :: pend) dy L -> objs h r = Some ob -> o_sp ob = Some n -> nodes h n = Some i -> n_obj i = r ->
  (forall b, ~ In n (L b)) -> tot h v pend dy r = 0 -> ~ In r dy ->
  Inv (set_node h n (Some (mkninfo 0 (n_obj i) (n_cr i)))) v pl (o_refs ob ++ pend) (r :: dy) L.
Proof.
  intros I Eo Es En Er HL Hz Hd.
  assert (Hb : r < onext h) by (eapply i_bound; eauto).
  set (h1 := set_node _ _ _).
  assert (TT : forall o, tot h1 v (o_refs ob ++ pend) (r :: dy) o = tot h v pend dy o).
  { intros o. change (tot h1 v (o_refs ob ++ pend) (r :: dy) o) with (tot h v (o_refs ob ++ pend) (r :: dy) o).
    apply tot_mark; auto. }
  assert (T1 : forall o, o <> r -> tot h v (r :: pend) dy o = tot h v pend dy o).
  { intros o Ho. rewrite tot_cons. destruct (Nat.eq_dec r o); [congruence|lia]. }
  constructor.
  - apply (i_ring _ _ _ _ _ _ I).
  - apply (i_disj _ _ _ _ _ _ I).
  - intros b m Hm. destruct (i_list _ _ _ _ _ _ I _ _ Hm) as (i' & A1 & A2 & A3 & A4). exists i'. cbn.
    assert (m <> n) by (intros ->; eapply HL; eauto).
    rewrite upd1_ne; auto. repeat split; auto. intros [Hx|Hx]; auto.
    subst r. destruct (i_node _ _ _ _ _ _ I _ _ A1) as (_ & ob' & B1 & B2). rewrite <- Hx in B1. congruence.
  - apply (i_det _ _ _ _ _ _ I).
  - intros m i' Hm. cbn in *. destruct (Nat.eq_dec m n) as [->|Hne].
    + rewrite upd1_eq in Hm. injection Hm as <-. cbn. rewrite Er. split; [|eauto]. eapply i_node in En; eauto. tauto.
    + rewrite upd1_ne in Hm by auto. eapply i_node; eauto.
  - intros o ob' m Ho Hm. rewrite TT. cbn in Ho. destruct (Nat.eq_dec o r) as [->|Hne].
    + rewrite Eo in Ho. injection Ho as <-. rewrite Es in Hm. injection Hm as <-.
      split. { eapply i_obj; eauto. }
      eexists. cbn. rewrite upd1_eq. split; [reflexivity|]. cbn. rewrite Hz. repeat split; auto; try lia; try (intros _ Hx; exfalso; apply Hx; simpl; auto).
    + destruct (i_obj _ _ _ _ _ _ I _ _ _ Ho Hm) as (Hc & i' & A1 & A2 & A). split; auto.
      exists i'. cbn. rewrite upd1_ne. 2:{ intros ->. apply Hne. rewrite A1 in En. congruence. }
      rewrite T1 in A by auto. destruct A as (A3 & A4 & A5). repeat split; auto; try (intros Hx Hy; apply A5; simpl in *; tauto).
  - intros o Ho. rewrite TT. cbn in Ho. destruct (Nat.eq_dec o r) as [->|Hne]; auto.
    rewrite <- T1 by auto. eapply i_nosp; eauto.
  - apply (i_bound _ _ _ _ _ _ I).
  - destruct (i_dy _ _ _ _ _ _ I) as (D1 & D2). split; [constructor; auto|].
    intros o Ho. rewrite TT. destruct Ho as [<-|Ho]; [eauto|].
    rewrite <- T1. 2:{ intros ->; auto. } exact (D2 o Ho).
Qed.

(** A dying object and its node are freed. *)
Lemma kill_ok h v pl pend r dy L ob n :
  Inv h v pl pend (r :: dy) L -> objs h r = Some ob -> o_sp ob = Some n ->
  Inv (set_node (set_obj h r None) n None) v pl pend dy L.
Proof.
  intros I Eo Es. destruct (i_dy _ _ _ _ _ _ I) as (D1 & D2).
  destruct (i_obj _ _ _ _ _ _ I _ _ _ Eo Es) as (Hc & i & En & Er & _).
  assert (Tr : tot h v pend (r :: dy) r = 0) by (apply D2; simpl; auto).
  set (h1 := set_node _ _ _).
  assert (TT : forall o, tot h1 v pend dy o = tot h v pend (r :: dy) o).
  { intros o. unfold tot. f_equal. f_equal. apply heldx_same; auto. intros p. unfold contrib. cbn.
    destruct (Nat.eqb_spec p r) as [->|Hp].
    - cbn. rewrite upd1_eq. destruct (mem r dy); auto.
    - cbn. rewrite upd1_ne by auto. reflexivity. }
  constructor.
  - apply (i_ring _ _ _ _ _ _ I).
  - apply (i_disj _ _ _ _ _ _ I).
  - intros b m Hm. destruct (i_list _ _ _ _ _ _ I _ _ Hm) as (i' & A1 & A2 & A3 & A4). exists i'. cbn.
    rewrite upd1_ne. 2:{ intros ->. rewrite A1 in En. injection En as ->. apply A4. simpl; auto. }
    repeat split; auto. intros Hx. apply A4. simpl; auto.
  - apply (i_det _ _ _ _ _ _ I).
  - intros m i' Hm. cbn in *. destruct (Nat.eq_dec m n) as [->|Hne]; [rewrite upd1_eq in Hm; discriminate|].
    rewrite upd1_ne in Hm by auto. destruct (i_node _ _ _ _ _ _ I _ _ Hm) as (B1 & ob' & B2 & B3). split; auto.
    exists ob'. rewrite upd1_ne; auto. intros Hx. rewrite Hx in B2. congruence.
  - intros o ob' m Ho Hm. rewrite TT. cbn in *. destruct (Nat.eq_dec o r) as [->|Hne]; [rewrite upd1_eq in Ho; discriminate|].
    rewrite upd1_ne in Ho by auto.
    destruct (i_obj _ _ _ _ _ _ I _ _ _ Ho Hm) as (Hc' & i' & A1 & A2 & A3 & A4 & A5). split; auto.
    exists i'. rewrite upd1_ne. 2:{ intros ->. apply Hne. congruence. }
    repeat split; auto. intros Hx Hy. apply A5; auto. intros [Hz|Hz]; auto.
  - intros o Ho. rewrite TT. cbn in Ho. destruct (Nat.eq_dec o r) as [->|Hne]; auto.
    rewrite upd1_ne in Ho by auto. eapply i_nosp; eauto.
  - intros o ob' Ho. cbn in *. destruct (Nat.eq_dec o r) as [->|Hne]; [rewrite upd1_eq in Ho; discriminate|].
    rewrite upd1_ne in Ho by auto. eapply i_bound; eauto.
  - apply NoDup_cons_iff in D1 as (D0 & D1). split; auto. intros o Ho. rewrite TT. cbn.
    assert (o <> r) by (intros ->; auto). rewrite upd1_ne by auto. apply D2. simpl; auto.
Qed.

(** What deleting leaves alone. *)
Definition frame (h h' : mgr) (rs : list nat) : Prop :=
  onext h' = onext h /\ nnext h' = nnext h /\ lnk h' = lnk h /\ bfst h' = bfst h /\ blst h' = blst h /\
  (forall p ob, objs h' p = Some ob -> objs h p = Some ob) /\
  (forall p ob, objs h p = Some ob -> objs h' p = None -> exists r, In r rs /\ reach h r p).
Lemma reach_sub h h' : (forall p ob, objs h' p = Some ob -> objs h p = Some ob) -> forall r p, reach h' r p -> reach h r p.
Proof. intros H r p R. induction R; [constructor|]. eapply reach_step; eauto. Qed.

Lemma each_release del p : forall rs h, ~ In p rs ->
  each (release_from del p) h rs = each (fun h r => unref_with del h r None) h rs.
Proof.
  induction rs as [|r rs IH]; intros h Hn; auto. cbn [each]. unfold release_from at 1.
  destruct (Nat.eqb_spec r p) as [->|_]; [exfalso; apply Hn; simpl; auto|].
  destruct (unref_with del h r None); cbn [rbind]; auto. apply IH. intros Hi. apply Hn. simpl; auto.
Qed.
Lemma not_self h v pend dy o ob : objs h o = Some ob -> ~ In o dy -> o < onext h -> tot h v pend dy o = 0 -> ~ In o (o_refs ob).
Proof.
  intros Eo Hd Hb Hz Hi. unfold tot in Hz. assert (Hh : heldx h dy o = 0) by lia. unfold heldx in Hh.
  assert (Hc : contrib h dy o o <= list_sum (map (contrib h dy o) (seq 0 (onext h)))).
  { assert (Hs : In o (seq 0 (onext h))) by (apply in_seq; lia). clear Hh. revert Hs.
    induction (seq 0 (onext h)) as [|a l IH]; intros Hs; [destruct Hs|]. simpl. destruct Hs as [->|Hs]; [lia|]. specialize (IH Hs).
    lia. }
  unfold contrib in Hc at 1. apply mem_out in Hd. rewrite Hd, Eo in Hc.
  apply (count_occ_In Nat.eq_dec) in Hi. lia.
Qed.

Lemma each_ok : forall f rs h v pl pend dy L,
  Inv h v pl (rs ++ pend) dy L -> alive h dy <= f ->
  exists h', each (fun h r => unref_with (delete f) h r None) h rs = Ok h' /\ Inv h' v pl pend dy L /\ frame h h' rs /\
    (forall p ob, objs h p = Some ob -> objs h' p = None -> 0 < tot h v (rs ++ pend) dy p).
Proof.
  induction f as [f IHf] using lt_wf_ind.
  induction rs as [|r rs IHrs]; intros h v pl pend dy L I Hf.
  { exists h. split; auto. split; auto. repeat split; auto; intros; congruence. }
  cbn [app] in I.
  assert (Ht : 0 < tot h v (r :: rs ++ pend) dy r).
  { rewrite tot_cons. destruct (Nat.eq_dec r r); [lia|congruence]. }
  destruct (held_is_live _ _ _ _ _ _ _ I Ht) as (ob & n & i & Eo & Es & En & Er & Ec & Ek & Hd & HL & Hb).
  assert (Hr1 : tot h v (r :: rs ++ pend) dy r = S (tot h v (rs ++ pend) dy r)).
  { rewrite tot_cons. destruct (Nat.eq_dec r r); [lia|congruence]. }
  assert (T1 : forall o, o <> r -> tot h v (rs ++ pend) dy o = tot h v (r :: rs ++ pend) dy o).
  { intros o Ho. rewrite tot_cons. destruct (Nat.eq_dec r o); [congruence|lia]. }
  destruct (i_obj _ _ _ _ _ _ I _ _ _ Eo Es) as (_ & i0 & En0 & _ & _ & Hlim & _).
  assert (Step : exists h1, unref_with (delete f) h r None = Ok h1 /\ Inv h1 v pl (rs ++ pend) dy L /\ frame h h1 [r] /\
      (forall p ob, objs h p = Some ob -> objs h1 p = None -> 0 < tot h v (r :: rs ++ pend) dy p)).
  { unfold unref_with, get_obj, get_node. rewrite Eo. cbn [ofo rbind]. rewrite Ec, Es, En. cbn [ofo rbind].
    destruct (Z.eqb_spec (n_sh i) 0); [lia|].
    destruct (Z.eqb_spec (n_sh i - 1) 0).
    - assert (Hz : tot h v (rs ++ pend) dy r = 0) by lia.
      pose proof (start_dying _ _ _ _ _ _ _ _ _ _ I Eo Es En Er HL Hz Hd) as I1.
      rewrite e. set (h1 := set_node h n _) in *.
      pose proof (alive_mark h dy r ob Eo Hd Hb) as Ha.
      destruct f as [|f]; [lia|].
      assert (Ha1 : alive h1 (r :: dy) <= f) by (change (alive h1 (r :: dy)) with (alive h (r :: dy)); lia).
      destruct (IHf f (Nat.lt_succ_diag_r f) _ _ _ _ _ _ _ I1 Ha1) as (h2 & E2 & I2 & (F1 & F2 & F3 & F4 & F5 & F6 & F7) & F8).
      cbn [delete]. unfold get_obj. rewrite Er.
      change (objs h1 r) with (objs h r). rewrite Eo. cbn [ofo rbind].
      rewrite each_release by exact (not_self _ _ _ _ _ _ Eo Hd Hb Hz).
      rewrite E2. cbn [rbind].
      destruct (i_dy _ _ _ _ _ _ I2) as (_ & D2). destruct (D2 r) as (_ & ob2 & n2 & G1 & G2); [simpl; auto|].
      pose proof (F6 _ _ G1) as G3. change (objs h1 r) with (objs h r) in G3. rewrite Eo in G3. injection G3 as <-.
      rewrite Es in G2. injection G2 as <-.
      rewrite G1. cbn [ofo rbind].
      destruct (i_obj _ _ _ _ _ _ I2 _ _ _ G1 Es) as (_ & i2 & En2 & _).
      cbn [nodes set_obj]. rewrite En2. cbn [ofo rbind].
      eexists. split; [reflexivity|]. split; [eapply kill_ok; eauto|].
      repeat split; cbn; auto.
      + intros p obp Hp. destruct (Nat.eq_dec p r) as [->|Hne]; [rewrite upd1_eq in Hp; discriminate|].
        rewrite upd1_ne in Hp by auto. apply F6 in Hp. exact Hp.
      + intros p obp Hp Hp'. exists r. split; auto.
        destruct (Nat.eq_dec p r) as [->|Hne]; [constructor|]. rewrite upd1_ne in Hp' by auto.
        destruct (F7 p obp Hp Hp') as (r' & Hr' & R'). eapply reach_step; eauto.
        apply reach_sub with h1; auto.
      + intros p obp Hp Hp'. destruct (Nat.eq_dec p r) as [->|Hne]; [lia|]. rewrite upd1_ne in Hp' by auto.
        specialize (F8 p obp Hp Hp').
        change (tot h1 v (o_refs ob ++ rs ++ pend) (r :: dy) p) with (tot h v (o_refs ob ++ rs ++ pend) (r :: dy) p) in F8.
        rewrite tot_mark in F8 by auto. rewrite <- T1 by auto. exact F8.
    - eexists. split; [reflexivity|]. split.
      + replace (n_sh i - 1)%Z with (Z.of_nat (tot h v (rs ++ pend) dy r)) by lia.
        rewrite <- Er. eapply recount with (ob := ob); eauto; try (rewrite Er; auto; fail); try (rewrite Er; lia); try (rewrite Er; intros; apply T1; auto).
      + repeat split; auto; intros; cbn in *; congruence. }
  destruct Step as (h1 & E1 & I1 & (F1 & F2 & F3 & F4 & F5 & F6 & F7) & F8).
  destruct (IHrs h1 v pl pend dy L I1) as (h2 & E2 & I2 & (G1 & G2 & G3 & G4 & G5 & G6 & G7) & G8).
  { etransitivity; [|exact Hf]. apply alive_sub; auto. intros p obp Hp. eauto. }
  exists h2. cbn [each]. rewrite E1. cbn [rbind]. split; auto. split; auto.
  repeat split; try congruence; auto.
  2:{ intros p obp Hp Hp'. destruct (objs h1 p) as [ob1|] eqn:Ep; [|eapply F8; eauto].
      specialize (G8 p ob1 Ep Hp'). cbn [app]. eapply Nat.lt_le_trans; [exact G8|].
      etransitivity; [apply tot_sub with (h := h); auto|]. rewrite tot_cons. lia. }
  intros p obp Hp Hp'. destruct (objs h1 p) as [ob1|] eqn:Ep.
  - destruct (G7 p ob1 Ep Hp') as (r' & Hr' & R'). exists r'. split; [simpl; auto|]. eapply reach_sub; eauto.
  - destruct (F7 p obp Hp Ep) as (r' & [<-|[]] & R'). exists r. split; [simpl; auto|]. auto.
Qed.

Lemma alive_bound h dy : alive h dy <= onext h.
Proof.
  unfold alive. rewrite <- (seq_length (onext h) 0) at 2.
  induction (seq 0 (onext h)) as [|p l IH]; simpl; auto. destruct (mem p dy); [lia|]. destruct (objs h p); lia.
Qed.
Lemma unref_none_ok h v pl o pend dy L : Inv h v pl (o :: pend) dy L ->
  exists h', unref h o None = Ok h' /\ Inv h' v pl pend dy L /\ frame h h' [o] /\
    (forall p ob, objs h p = Some ob -> objs h' p = None -> 0 < tot h v (o :: pend) dy p).
Proof.
  intros I. destruct (each_ok (S (onext h)) [o] h v pl pend dy L I) as (h' & E & I' & F).
  { pose proof (alive_bound h dy). lia. }
  exists h'. split; auto. cbn [each] in E.
  change (unref h o None) with (unref_with (delete (S (onext h))) h o None).
  destruct (unref_with (delete (S (onext h))) h o None); auto; discriminate.
Qed.

Lemma tot_objs h h1 v pend dy o : objs h1 = objs h -> onext h1 = onext h -> tot h1 v pend dy o = tot h v pend dy o.
Proof. intros E1 E2. unfold tot, heldx, contrib. now rewrite E1, E2. Qed.

(** One object's node changes count or list, everything else stays. *)
Lemma relink h v pl pend dy L h1 v' pl' pend' dy' L' o n ob i1 :
  Inv h v pl pend dy L -> objs h o = Some ob -> o_sp ob = Some n ->
  objs h1 = objs h -> onext h1 = onext h -> nnext h1 = nnext h ->
  (forall m, m <> n -> nodes h1 m = nodes h m) -> nodes h1 n = Some i1 -> n_obj i1 = o ->
  n_sh i1 = Z.of_nat (tot h v' pend' dy' o) -> (Z.of_nat (tot h v' pend' dy' o) < 65536)%Z ->
  (forall b, inv (view h1 b) (L' b)) ->
  (forall b b' m, In m (L' b) -> In m (L' b') -> b = b') ->
  (forall m, (forall b, ~ In m (L' b)) -> detached (lnk h1) m) ->
  (forall m b, m <> n -> In m (L' b) <-> In m (L b)) ->
  (forall b, In n (L' b) -> tot h v' pend' dy' o = 0 /\ pl' o = b /\ ~ In o dy') ->
  (tot h v' pend' dy' o = 0 -> ~ In o dy' -> In n (L' (pl' o))) ->
  (forall x, x <> o -> tot h v' pend' dy' x = tot h v pend dy x /\ pl' x = pl x /\ (In x dy' <-> In x dy)) ->
  NoDup dy' -> (In o dy' -> tot h v' pend' dy' o = 0) ->
  Inv h1 v' pl' pend' dy' L'.
Proof.
  intros I Eo Es Q1 Q2 Q3 Q4 Q5 Q6 Q7 Q8 R1 R2 R3 R4 R5 R6 X D1 D2.
  assert (TT : forall x, tot h1 v' pend' dy' x = tot h v' pend' dy' x) by (intros; apply tot_objs; auto).
  destruct (i_obj _ _ _ _ _ _ I _ _ _ Eo Es) as (Hc & i & En & Ei & _).
  assert (Other : forall m i', m <> n -> nodes h m = Some i' -> n_obj i' <> o).
  { intros m i' Hm Hi Hx. destruct (i_node _ _ _ _ _ _ I _ _ Hi) as (_ & ob' & B1 & B2). rewrite Hx in B1. congruence. }
  constructor; auto.
  - intros b m Hm. destruct (Nat.eq_dec m n) as [->|Hne].
    + exists i1. destruct (R5 _ Hm) as (Y1 & Y2 & Y3). rewrite Q6. repeat split; auto. lia.
    + apply R4 in Hm; auto. destruct (i_list _ _ _ _ _ _ I _ _ Hm) as (i' & A1 & A2 & A3 & A4).
      exists i'. rewrite Q4 by auto. destruct (X (n_obj i')) as (X1 & X2 & X3); [eauto|].
      rewrite X2, X3. auto.
  - intros m i' Hm. rewrite Q1, Q3. destruct (Nat.eq_dec m n) as [->|Hne].
    + rewrite Q5 in Hm. injection Hm as <-. rewrite Q6. split; [|eauto]. eapply i_node in En; eauto. tauto.
    + rewrite Q4 in Hm by auto. eapply i_node; eauto.
  - intros x ob' m Hx Hm. rewrite TT. rewrite Q1 in Hx. destruct (Nat.eq_dec x o) as [->|Hne].
    + rewrite Eo in Hx. injection Hx as <-. rewrite Es in Hm. injection Hm as <-. split; auto.
      exists i1. repeat split; auto.
    + destruct (i_obj _ _ _ _ _ _ I _ _ _ Hx Hm) as (Hc' & i' & A1 & A2 & A3 & A4 & A5). split; auto.
      assert (m <> n) by (intros ->; apply Hne; congruence).
      destruct (X x Hne) as (X1 & X2 & X3). exists i'. rewrite Q4, X1, X2, X3 by auto. rewrite R4 by auto. auto.
  - intros x Hx. rewrite TT. rewrite Q1 in Hx. destruct (Nat.eq_dec x o) as [->|Hne].
    + rewrite Eo in Hx. destruct Hx as [Hx|(ob' & Hx & Hs)]; congruence.
    + destruct (X x Hne) as (X1 & X2 & X3). rewrite X1. eapply i_nosp; eauto.
  - intros x ob'. rewrite Q1, Q2. apply (i_bound _ _ _ _ _ _ I).
  - split; auto. intros x Hx. rewrite TT, Q1. destruct (Nat.eq_dec x o) as [->|Hne].
    + split; auto. eauto.
    + destruct (X x Hne) as (X1 & X2 & X3). rewrite X1. apply (i_dy _ _ _ _ _ _ I). tauto.
Qed.

(** The node is freed, the object lives on uncounted. *)
Lemma orphan h v pl pend dy L h1 v' pend' L' o n ob :
  Inv h v pl pend dy L -> objs h o = Some ob -> o_sp ob = Some n -> ~ In o dy ->
  objs h1 = objs h -> onext h1 = onext h -> nnext h1 = nnext h -> nodes h1 = nodes h ->
  tot h v' pend' dy o = 0 ->
  (forall b, inv (view h1 b) (L' b)) ->
  (forall b b' m, In m (L' b) -> In m (L' b') -> b = b') ->
  (forall m, (forall b, ~ In m (L' b)) -> detached (lnk h1) m) ->
  (forall m b, In m (L' b) <-> In m (L b) /\ m <> n) ->
  (forall x, x <> o -> tot h v' pend' dy x = tot h v pend dy x) ->
  Inv (set_node (set_obj h1 o (Some (mkobj (o_const ob) None (o_refs ob)))) n None) v' pl pend' dy L'.
Proof.
  intros I Eo Es Hd Q1 Q2 Q3 Q4 Hz R1 R2 R3 R4 X.
  destruct (i_obj _ _ _ _ _ _ I _ _ _ Eo Es) as (Hc & i & En & Ei & _).
  set (h2 := set_node _ _ _).
  assert (TT : forall x, tot h2 v' pend' dy x = tot h v' pend' dy x).
  { intros x. unfold tot. f_equal. f_equal. apply heldx_same; auto. intros p. unfold contrib. cbn.
    rewrite Q1. destruct (Nat.eq_dec p o) as [->|Hp]; [rewrite upd1_eq, Eo|rewrite upd1_ne by auto]; auto. }
  constructor; auto.
  - intros b m Hm. apply R4 in Hm as (Hm & Hne). destruct (i_list _ _ _ _ _ _ I _ _ Hm) as (i' & A).
    exists i'. cbn. rewrite upd1_ne, Q4 by auto. auto.
  - intros m i' Hm. cbn in *. destruct (Nat.eq_dec m n) as [->|Hne]; [rewrite upd1_eq in Hm; discriminate|].
    rewrite upd1_ne, Q4 in Hm by auto. rewrite Q3. destruct (i_node _ _ _ _ _ _ I _ _ Hm) as (B1 & ob' & B2 & B3). split; auto.
    exists ob'. rewrite upd1_ne, Q1; auto. intros Hx. rewrite Hx in B2. congruence.
  - intros x ob' m Hx Hm. rewrite TT. cbn in *. destruct (Nat.eq_dec x o) as [->|Hne].
    + rewrite upd1_eq in Hx. injection Hx as <-. discriminate.
    + rewrite upd1_ne, Q1 in Hx by auto.
      destruct (i_obj _ _ _ _ _ _ I _ _ _ Hx Hm) as (Hc' & i' & A1 & A2 & A3 & A4 & A5). split; auto.
      assert (m <> n) by (intros ->; apply Hne; congruence).
      exists i'. rewrite upd1_ne, Q4, X by auto. repeat split; auto. intros Y1 Y2. apply R4. auto.
  - intros x Hx. rewrite TT. cbn in Hx. destruct (Nat.eq_dec x o) as [->|Hne]; auto.
    rewrite upd1_ne, Q1 in Hx by auto. rewrite X by auto. eapply i_nosp; eauto.
  - intros x ob' Hx. cbn in *. rewrite Q2. destruct (Nat.eq_dec x o) as [->|Hne]; [eapply i_bound; eauto|].
    rewrite upd1_ne, Q1 in Hx by auto. eapply i_bound; eauto.
  - destruct (i_dy _ _ _ _ _ _ I) as (D1 & D2). split; auto. intros x Hx. rewrite TT. cbn.
    assert (x <> o) by (intros ->; auto). rewrite upd1_ne, Q1, X by auto. auto.
Qed.

Lemma list_nodes h v pl pend dy L : Inv h v pl pend dy L -> forall b n, In n (L b) -> nodes h n <> None.
Proof. intros I b n H. apply (i_list _ _ _ _ _ _ I) in H as (i & -> & _). discriminate. Qed.

Lemma detach_in h v pl pend dy L h0 b l1 n l2 : Inv h v pl pend dy L -> L b = l1 ++ n :: l2 ->
  lnk h0 = lnk h -> bfst h0 = bfst h -> blst h0 = blst h ->
  (forall m, nodes h m <> None -> nodes h0 m <> None) ->
  exists c, detach_node h0 b n = Ok (put_view h0 b c) /\
    (forall b', inv (view (put_view h0 b c) b') (lput L b (l1 ++ l2) b')) /\
    (forall m, (forall b', ~ In m (lput L b (l1 ++ l2) b')) -> detached (lnk (put_view h0 b c)) m) /\
    (forall b1 b2 m, In m (lput L b (l1 ++ l2) b1) -> In m (lput L b (l1 ++ l2) b2) -> b1 = b2) /\
    (forall m b', In m (lput L b (l1 ++ l2) b') <-> In m (L b') /\ m <> n).
Proof.
  intros I HL E1 E2 E3 E4.
  destruct (detach_rings h0 L b l1 n l2) as (c & D & R & O); auto.
  - intros b'. unfold view. rewrite E1, E2, E3. apply (i_ring _ _ _ _ _ _ I).
  - apply (i_disj _ _ _ _ _ _ I).
  - intros b' m Hm. apply E4. eapply list_nodes; eauto.
  - rewrite E1. apply (i_det _ _ _ _ _ _ I).
  - assert (M : forall m b', In m (lput L b (l1 ++ l2) b') <-> In m (L b') /\ m <> n).
    { intros m b'. unfold lput. destruct (Nat.eq_dec b' b) as [->|Hb].
      - rewrite upd1_eq, HL. pose proof (inv_nodup _ _ (i_ring _ _ _ _ _ _ I b)) as Hn. rewrite HL in Hn.
        apply NoDup_remove_2 in Hn. rewrite !in_app_iff in *. simpl. split.
        + intros H. split; [tauto|]. intros ->. tauto.
        + intros ([H|[H|H]] & H'); auto. congruence.
      - rewrite upd1_ne by auto. split; [|tauto]. intros H. split; auto. intros ->. apply Hb.
        eapply (i_disj _ _ _ _ _ _ I); eauto. rewrite HL. apply in_app_iff; simpl; auto. }
    exists c. split; auto. split; auto. split; auto. split; auto.
    intros b1 b2 m H1 H2. apply M in H1 as (H1 & _). apply M in H2 as (H2 & _). eapply (i_disj _ _ _ _ _ _ I); eauto.
Qed.

(** *** Sharing *)
Lemma share_ok h v pl pend L o ob n i :
  Inv h v pl pend [] L -> objs h o = Some ob -> o_sp ob = Some n -> nodes h n = Some i ->
  (Z.of_nat (tot h v pend [] o) < 65535)%Z -> (tot h v pend [] o = 0 -> pl o = n_cr i) ->
  exists h' L', share h o = Ok h' /\ Inv h' v pl (o :: pend) [] L' /\ objs h' = objs h.
Proof.
  intros I Eo Es En Hk Hp.
  destruct (i_obj _ _ _ _ _ _ I _ _ _ Eo Es) as (Hc & i' & En' & Er & Ek & _ & Hw).
  rewrite En in En'. injection En' as <-.
  assert (T1 : tot h v (o :: pend) [] o = S (tot h v pend [] o)).
  { rewrite tot_cons. destruct (Nat.eq_dec o o); [lia|congruence]. }
  assert (T2 : forall x, x <> o -> tot h v (o :: pend) [] x = tot h v pend [] x).
  { intros x Hx. rewrite tot_cons. destruct (Nat.eq_dec o x); [congruence|lia]. }
  unfold share, get_obj, get_node. rewrite Eo. cbn [ofo rbind]. rewrite Hc, Es, En. cbn [ofo rbind].
  rewrite Z.mod_small by lia.
  replace (n_sh i + 1)%Z with (Z.of_nat (tot h v (o :: pend) [] o)) by lia.
  set (h1 := set_node h n _).
  destruct (Z.eqb_spec (n_sh i) 0).
  - assert (Hz : tot h v pend [] o = 0) by lia. specialize (Hw Hz (fun x => x)).
    rewrite (Hp Hz) in Hw. apply in_split in Hw as (l1 & l2 & HL).
    destruct (detach_in h v pl pend [] L h1 (n_cr i) l1 n l2 I HL eq_refl eq_refl eq_refl) as (c & D & R1 & R2 & R3 & R4).
    { intros m Hm. cbn. destruct (Nat.eq_dec m n) as [->|]; [rewrite upd1_eq|rewrite upd1_ne by auto]; congruence. }
    exists (put_view h1 (n_cr i) c), (lput L (n_cr i) (l1 ++ l2)). split; auto. split; auto.
    eapply relink with (h := h) (o := o) (n := n) (v' := v) (pend' := o :: pend) (dy' := [])
      (i1 := mkninfo (Z.of_nat (tot h v (o :: pend) [] o)) (n_obj i) (n_cr i)); eauto; try reflexivity; cbn;
      try lia; try (rewrite upd1_eq; reflexivity); try (intros m Hm; now rewrite upd1_ne); try (constructor; fail); try tauto.
    + intros m b Hm. rewrite R4. tauto.
    + intros b Hb. apply R4 in Hb. tauto.
    + intros x Hx. split; auto. tauto.
  - exists h1, L. split; auto. split; auto.
    assert (HL : forall b, ~ In n (L b)).
    { intros b Hb. apply (i_list _ _ _ _ _ _ I) in Hb as (i2 & B1 & B2 & _). rewrite En in B1. injection B1 as <-. lia. }
    eapply relink with (h := h) (o := o) (n := n) (v' := v) (pend' := o :: pend) (dy' := [])
      (i1 := mkninfo (Z.of_nat (tot h v (o :: pend) [] o)) (n_obj i) (n_cr i)); eauto; try reflexivity; cbn;
      try lia; try (rewrite upd1_eq; reflexivity); try (intros m Hm; now rewrite upd1_ne); try (constructor; fail); try tauto.
    + apply (i_ring _ _ _ _ _ _ I).
    + apply (i_disj _ _ _ _ _ _ I).
    + apply (i_det _ _ _ _ _ _ I).
    + intros b Hb. destruct (HL _ Hb).
    + intros x Hx. split; auto. tauto.
Qed.

(** *** Releasing into a block *)
Lemma unref_some_ok h v pl o pend L b : Inv h v pl (o :: pend) [] L ->
  exists h' L', unref h o (Some b) = Ok h' /\ Inv h' v (upd1 pl o b) pend [] L' /\ objs h' = objs h.
Proof.
  intros I.
  assert (T1 : tot h v (o :: pend) [] o = S (tot h v pend [] o)).
  { rewrite tot_cons. destruct (Nat.eq_dec o o); [lia|congruence]. }
  assert (T2 : forall x, x <> o -> tot h v pend [] x = tot h v (o :: pend) [] x).
  { intros x Hx. rewrite tot_cons. destruct (Nat.eq_dec o x); [congruence|lia]. }
  destruct (held_is_live h v pl (o :: pend) [] L o I) as (ob & n & i & Eo & Es & En & Er & Ec & Ek & _ & HL & Hb); [lia|].
  destruct (i_obj _ _ _ _ _ _ I _ _ _ Eo Es) as (_ & i' & _ & _ & _ & Hlim & _).
  unfold unref, unref_with, get_obj, get_node. rewrite Eo. cbn [ofo rbind]. rewrite Ec, Es, En. cbn [ofo rbind].
  destruct (Z.eqb_spec (n_sh i) 0); [lia|].
  replace (n_sh i - 1)%Z with (Z.of_nat (tot h v pend [] o)) by lia.
  set (h1 := set_node h n _).
  destruct (Z.eqb_spec (Z.of_nat (tot h v pend [] o)) 0).
  - assert (Hz : tot h v pend [] o = 0) by lia.
    destruct (insert_rings h1 L b n) as (c & D & R1 & R2).
    { apply (i_ring _ _ _ _ _ _ I). }
    { auto. }
    { apply (i_det _ _ _ _ _ _ I). auto. }
    { apply (i_disj _ _ _ _ _ _ I). }
    { apply (i_det _ _ _ _ _ _ I). }
    exists (put_view h1 b c), (lput L b (L b ++ [n])). split; auto. split; auto.
    assert (M : forall m b', In m (lput L b (L b ++ [n]) b') <-> In m (L b') \/ (b' = b /\ m = n)).
    { intros m b'. unfold lput. destruct (Nat.eq_dec b' b) as [->|Hbb].
      - rewrite upd1_eq, in_app_iff. simpl. intuition.
      - rewrite upd1_ne by auto. intuition. }
    eapply relink with (h := h) (o := o) (n := n) (v' := v) (pend' := pend) (dy' := [])
      (i1 := mkninfo (Z.of_nat (tot h v (pend) [] o)) (n_obj i) (n_cr i)); eauto; try reflexivity; cbn;
      try lia; try (rewrite upd1_eq; reflexivity); try (intros m Hm; now rewrite upd1_ne); try (constructor; fail); try tauto.
    + intros b1 b2 m H1 H2. apply M in H1. apply M in H2.
      destruct H1 as [H1|(H1 & H1')], H2 as [H2|(H2 & H2')]; subst; auto.
      * eapply (i_disj _ _ _ _ _ _ I); eauto.
      * destruct (HL _ H1).
      * destruct (HL _ H2).
    + intros m b' Hm. rewrite M. intuition.
    + intros b' Hb'. rewrite upd1_eq. apply M in Hb' as [Hx|(-> & _)]; [destruct (HL _ Hx)|]. auto.
    + intros _ _. rewrite upd1_eq. apply M. auto.
    + intros x Hx. rewrite upd1_ne by auto. split; auto. tauto.
  - exists h1, L. split; auto. split; auto.
    eapply relink with (h := h) (o := o) (n := n) (v' := v) (pend' := pend) (dy' := [])
      (i1 := mkninfo (Z.of_nat (tot h v (pend) [] o)) (n_obj i) (n_cr i)); eauto; try reflexivity; cbn;
      try lia; try (rewrite upd1_eq; reflexivity); try (intros m Hm; now rewrite upd1_ne); try (constructor; fail); try tauto.
    + apply (i_ring _ _ _ _ _ _ I).
    + apply (i_disj _ _ _ _ _ _ I).
    + apply (i_det _ _ _ _ _ _ I).
    + intros b' Hb'. destruct (HL _ Hb').
    + intros x Hx. rewrite upd1_ne by auto. split; auto. tauto.
Qed.

(** *** Sweeping a block *)
Lemma ring_next st c l : inv st (c :: l) -> next (heap st) c = Some (match l with [] => c | d :: _ => d end).
Proof. intros [_ H _ _]. unfold ring in H. destruct l; cbn [app] in H; [destruct H as (H & _)|apply chain_cons2 in H as (H & _)]; exact H. Qed.

(** One round of the loop, on the object waiting first. *)
Definition sweep_one (h : mgr) (b : nat) (ret : list nat) (c : nat) (o : nat) : res mgr :=
  do h1 <- detach_node h b c;
  do ob <- get_obj h1 o;
  do h2 <- (if mem o ret then Ok (set_obj h1 o (Some (mkobj (o_const ob) None (o_refs ob)))) else del h1 o);
  do _x <- get_node h2 c;
  Ok (set_node h2 c None).

Lemma sweep_one_ok h v pl pend L b c l i ret :
  Inv h v pl pend [] L -> L b = c :: l -> nodes h c = Some i ->
  exists h', sweep_one h b ret c (n_obj i) = Ok h' /\ Inv h' v pl pend [] (lput L b l) /\
    onext h' = onext h /\ nnext h' = nnext h /\
    (forall p, p <> n_obj i -> tot h v pend [] p = 0 -> objs h' p = objs h p) /\
    (forall p ob, p <> n_obj i -> objs h' p = Some ob -> objs h p = Some ob) /\
    (if mem (n_obj i) ret
     then (exists ob, objs h (n_obj i) = Some ob /\ objs h' (n_obj i) = Some (mkobj (o_const ob) None (o_refs ob))) /\
          (forall p, p <> n_obj i -> objs h' p = objs h p)
     else objs h' (n_obj i) = None /\
          (forall p ob, objs h p = Some ob -> objs h' p = None -> reach h (n_obj i) p)).
Proof.
  intros I HL En. set (o := n_obj i) in *.
  destruct (i_node _ _ _ _ _ _ I _ _ En) as (Hc0 & ob & Eo & Es). fold o in Eo.
  destruct (i_obj _ _ _ _ _ _ I _ _ _ Eo Es) as (Ec & i' & En' & Er & Ek & Hlim & Hw).
  rewrite En in En'. injection En' as <-.
  assert (Hin : In c (L b)) by (rewrite HL; simpl; auto).
  destruct (i_list _ _ _ _ _ _ I _ _ Hin) as (i' & B1 & B2 & B3 & _). rewrite En in B1. injection B1 as <-.
  fold o in B3. assert (Hz : tot h v pend [] o = 0) by lia.
  assert (Hb : o < onext h) by (eapply i_bound; eauto).
  destruct (detach_in h v pl pend [] L h b [] c l I HL eq_refl eq_refl eq_refl) as (cl & D & R1 & R2 & R3 & R4); auto.
  cbn [app] in *. unfold sweep_one. rewrite D. cbn [rbind]. unfold get_obj.
  change (objs (put_view h b cl) o) with (objs h o). rewrite Eo. cbn [ofo rbind].
  destruct (mem o ret) eqn:Em.
  - cbn [rbind]. unfold get_node. change (nodes _ c) with (nodes h c). rewrite En. cbn [ofo rbind].
    eexists. split; [reflexivity|]. split.
    { eapply orphan with (h := h) (v := v) (pend := pend); eauto; try reflexivity. }
    cbn. repeat split; auto.
    + intros p Hp _. now rewrite upd1_ne.
    + intros p ob' Hp. now rewrite upd1_ne.
    + exists ob. now rewrite upd1_eq.
    + intros p Hp. now rewrite upd1_ne.
  - set (h1 := put_view h b cl) in *.
    assert (I1 : Inv h1 v pl (o_refs ob ++ pend) [o] (lput L b l)).
    { eapply relink with (h := h) (o := o) (n := c) (v' := v) (pend' := o_refs ob ++ pend) (dy' := [o]) (i1 := i);
        eauto; try reflexivity.
      - rewrite tot_mark by auto. auto.
      - rewrite tot_mark by auto. lia.
      - intros m b' Hm. rewrite R4. tauto.
      - intros b' Hb'. apply R4 in Hb'. tauto.
      - intros _ Hx. simpl in Hx. tauto.
      - intros x Hx. rewrite tot_mark by auto. simpl. intuition.
      - constructor; [tauto|constructor].
      - intros _. now rewrite tot_mark by auto. }
    unfold del. cbn [delete]. unfold get_obj. change (objs h1 o) with (objs h o). rewrite Eo. cbn [ofo rbind].
    destruct (each_ok (onext h1) (o_refs ob) h1 v pl pend [o] (lput L b l) I1) as (h2 & E2 & I2 & (F1 & F2 & F3 & F4 & F5 & F6 & F7) & F8).
    { apply alive_bound. }
    rewrite each_release by exact (not_self h v pend [] o ob Eo (fun x => x) Hb Hz).
    rewrite E2. cbn [rbind].
    destruct (i_dy _ _ _ _ _ _ I2) as (_ & D2). destruct (D2 o) as (_ & ob2 & n2 & G1 & G2); [simpl; auto|].
    pose proof (F6 _ _ G1) as G3. change (objs h1 o) with (objs h o) in G3. rewrite Eo in G3. injection G3 as <-.
    rewrite Es in G2. injection G2 as <-.
    rewrite G1. cbn [ofo rbind].
    destruct (i_obj _ _ _ _ _ _ I2 _ _ _ G1 Es) as (_ & i2 & En2 & _).
    unfold get_node. cbn [nodes set_obj]. rewrite En2. cbn [ofo rbind].
    eexists. split; [reflexivity|]. split; [eapply kill_ok; eauto|].
    cbn. repeat split; auto.
    + intros p Hp Hzp. rewrite upd1_ne by auto. destruct (objs h2 p) as [obp|] eqn:Ep.
      * apply F6 in Ep. now rewrite <- Ep.
      * change (objs h p) with (objs h1 p). destruct (objs h1 p) as [obp|] eqn:Ep1; auto.
        specialize (F8 _ _ Ep1 Ep).
        change (tot h1 v (o_refs ob ++ pend) [o] p) with (tot h v (o_refs ob ++ pend) [o] p) in F8.
        rewrite tot_mark in F8 by auto. lia.
    + intros p obp Hp. rewrite upd1_ne by auto. intros Hx. apply F6 in Hx. exact Hx.
    + now rewrite upd1_eq.
    + intros p obp Hp Hp'. destruct (Nat.eq_dec p o) as [->|Hne]; [constructor|]. rewrite upd1_ne in Hp' by auto.
      destruct (F7 p obp Hp Hp') as (r' & Hr' & R'). eapply reach_step; eauto. apply reach_sub with h1; auto.
Qed.

(** What a sweep does to the objects. *)
Definition swept (h h' : mgr) (l ret : list nat) : Prop :=
  (forall n i, In n l -> nodes h n = Some i -> ~ In (n_obj i) ret -> objs h' (n_obj i) = None) /\
  (forall n i, In n l -> nodes h n = Some i -> In (n_obj i) ret ->
     exists ob, objs h (n_obj i) = Some ob /\ objs h' (n_obj i) = Some (mkobj (o_const ob) None (o_refs ob))) /\
  (forall p ob, objs h p = Some ob -> objs h' p = None ->
     exists n i, In n l /\ nodes h n = Some i /\ ~ In (n_obj i) ret /\ reach h (n_obj i) p) /\
  (forall p ob', objs h' p = Some ob' -> exists ob, objs h p = Some ob /\ o_refs ob' = o_refs ob /\ o_const ob' = o_const ob /\
     (ob' = ob \/ exists n i, In n l /\ nodes h n = Some i /\ n_obj i = p /\ In p ret)).

Lemma reach_refs h h' : (forall p ob', objs h' p = Some ob' -> exists ob, objs h p = Some ob /\ o_refs ob' = o_refs ob) ->
  forall r p, reach h' r p -> reach h r p.
Proof.
  intros H r p R. induction R; [constructor|]. destruct (H _ _ H0) as (ob' & E & Er). eapply reach_step; eauto. congruence.
Qed.

Lemma sweep_loop_ok : forall l f h v pl pend L b c ret,
  Inv h v pl pend [] L -> L b = c :: l -> length l < f ->
  exists h' L', sweep_loop f h b ret c = Ok h' /\ Inv h' v pl pend [] L' /\ L' b = [] /\ (forall b', b' <> b -> L' b' = L b') /\
    onext h' = onext h /\ swept h h' (c :: l) ret.
Proof.
  induction l as [|d l IH]; intros f h v pl pend L b c ret I HL Hf; (destruct f as [|f]; [simpl in Hf; lia|]).
  all: assert (Hin : In c (L b)) by (rewrite HL; simpl; auto).
  all: destruct (i_list _ _ _ _ _ _ I _ _ Hin) as (i & En & Esh & _).
  all: pose proof (i_ring _ _ _ _ _ _ I b) as Hr; rewrite HL in Hr.
  all: pose proof (ring_next _ _ _ Hr) as Hn; pose proof (inv_first _ _ Hr) as Hf1; cbn [view heap first hd_error] in Hn, Hf1.
  all: destruct (sweep_one_ok h v pl pend L b c _ i ret I HL En) as (h1 & S1 & I1 & O1 & N1 & K1 & K2 & K3).
  all: cbn [sweep_loop]; unfold get_node at 1; rewrite En; cbn [ofo rbind]; rewrite Hn, Hf1.
  all: unfold sweep_one in S1.
  all: destruct (detach_node h b c) as [ha| | |]; try discriminate; cbn [rbind] in *.
  all: destruct (get_obj ha (n_obj i)) as [oba| | |]; try discriminate; cbn [rbind] in *.
  all: destruct (if mem (n_obj i) ret then _ else _) as [hb| | |]; try discriminate; cbn [rbind] in *.
  all: destruct (get_node hb c) as [nb| | |]; try discriminate; cbn [rbind] in *; injection S1 as S1.
  - rewrite Nat.eqb_refl. exists h1, (lput L b []). rewrite S1. split; auto. split; auto.
    split; [apply upd1_eq|]. split; [intros b' Hb'; now apply upd1_ne|]. split; auto.
    assert (O : forall n i0, In n [c] -> nodes h n = Some i0 -> i0 = i) by (intros n i0 [<-|[]] H; congruence).
    split; [|split; [|split]].
    + intros n i0 H1 H2 H3. rewrite (O _ _ H1 H2) in *. apply mem_out in H3. rewrite H3 in K3. tauto.
    + intros n i0 H1 H2 H3. rewrite (O _ _ H1 H2) in *. apply mem_in in H3. rewrite H3 in K3. tauto.
    + intros p ob Hp Hp'. destruct (mem (n_obj i) ret) eqn:Em.
      * destruct K3 as ((ob' & Q1 & Q2) & Q3). destruct (Nat.eq_dec p (n_obj i)) as [->|Hne]; [congruence|]. rewrite Q3 in Hp' by auto. congruence.
      * exists c, i. apply mem_out in Em. repeat split; simpl; auto. eapply K3; eauto.
    + intros p ob' Hp. destruct (Nat.eq_dec p (n_obj i)) as [->|Hne].
      * destruct (mem (n_obj i) ret) eqn:Em; [|destruct K3; congruence].
        destruct K3 as ((ob & Q1 & Q2) & _). rewrite Q2 in Hp. injection Hp as <-. exists ob. repeat split; auto.
        right. exists c, i. apply mem_in in Em. simpl; auto.
      * exists ob'. apply K2 in Hp; auto.
  - assert (Hdc : d =? c = false).
    { apply Nat.eqb_neq. intros ->. apply inv_nodup in Hr. inversion Hr; subst. simpl in *. tauto. }
    rewrite Hdc. rewrite S1.
    destruct (IH f h1 v pl pend (lput L b (d :: l)) b d ret I1) as (h2 & L2 & S2 & I2 & L2b & L2o & O2 & W1 & W2 & W3 & W4).
    { apply upd1_eq. } { simpl in Hf. lia. }
    exists h2, L2. split; auto. split; auto. split; auto.
    split; [intros b' Hb'; rewrite L2o by auto; now apply upd1_ne|]. split; [congruence|].
    (* nodes waiting behind keep their objects *)
    assert (Keep : forall n i0, In n (d :: l) -> nodes h n = Some i0 -> n_obj i0 <> n_obj i /\ objs h1 (n_obj i0) = objs h (n_obj i0) /\
              exists i1, nodes h1 n = Some i1 /\ n_obj i1 = n_obj i0).
    { intros n i0 Hn0 En0. assert (HnL : In n (L b)) by (rewrite HL; simpl in *; auto).
      destruct (i_list _ _ _ _ _ _ I _ _ HnL) as (i0' & B1 & B2 & _). rewrite En0 in B1. injection B1 as <-.
      destruct (i_node _ _ _ _ _ _ I _ _ En0) as (_ & ob0 & C1 & C2).
      destruct (i_node _ _ _ _ _ _ I _ _ En) as (_ & ob1 & C3 & C4).
      destruct (i_obj _ _ _ _ _ _ I _ _ _ C1 C2) as (_ & i0' & B3 & _ & B4 & _). rewrite En0 in B3. injection B3 as <-.
      assert (Hne : n_obj i0 <> n_obj i).
      { intros Hx. rewrite Hx in C1. apply inv_nodup in Hr. inversion Hr; subst. assert (n = c) by congruence. subst. auto. }
      assert (Hk : objs h1 (n_obj i0) = objs h (n_obj i0)) by (apply K1; [auto|lia]).
      split; auto. split; auto.
      destruct (i_obj _ _ _ _ _ _ I1 (n_obj i0) ob0 n) as (_ & i1 & D1 & D2 & _); [congruence|auto|]. eauto. }
    assert (Sub : forall p ob', objs h1 p = Some ob' -> exists ob, objs h p = Some ob /\ o_refs ob' = o_refs ob /\ o_const ob' = o_const ob /\
              (ob' = ob \/ (p = n_obj i /\ In p ret))).
    { intros p ob' Hp. destruct (Nat.eq_dec p (n_obj i)) as [->|Hne].
      - destruct (mem (n_obj i) ret) eqn:Em; [|destruct K3; congruence].
        destruct K3 as ((ob & Q1 & Q2) & _). rewrite Q2 in Hp. injection Hp as <-. exists ob. apply mem_in in Em. repeat split; auto.
      - exists ob'. apply K2 in Hp; auto. }
    assert (Cin : forall n i0, In n (c :: d :: l) -> nodes h n = Some i0 -> (n = c /\ i0 = i) \/ In n (d :: l)).
    { intros n i0 [<-|H] H'; auto. left. split; congruence. }
    assert (Back : forall n i1, In n (d :: l) -> nodes h1 n = Some i1 -> exists i0, nodes h n = Some i0 /\ n_obj i0 = n_obj i1).
    { intros n i1 H1 H2. assert (HnL : In n (L b)) by (rewrite HL; simpl in *; auto).
      destruct (i_list _ _ _ _ _ _ I _ _ HnL) as (i0 & B1 & _). destruct (Keep n i0 H1 B1) as (_ & _ & i1' & B2 & B3).
      exists i0. split; auto. congruence. }
    (* the first object is not resurrected or lost later *)
    split; [|split; [|split]].
    + intros n i0 H1 H2 H3. destruct (Cin _ _ H1 H2) as [(-> & ->)|H4].
      * apply mem_out in H3. rewrite H3 in K3. destruct K3 as (K3 & _).
        destruct (objs h2 (n_obj i)) as [ob2|] eqn:E2; auto. apply W4 in E2 as (ob3 & E3 & _). congruence.
      * destruct (Keep _ _ H4 H2) as (Q1 & Q2 & i1 & Q3 & Q4). rewrite <- Q4. eapply W1; eauto. congruence.
    + intros n i0 H1 H2 H3. destruct (Cin _ _ H1 H2) as [(-> & ->)|H4].
      * apply mem_in in H3. rewrite H3 in K3. destruct K3 as ((ob & Q1 & Q2) & _). exists ob. split; auto.
        destruct (objs h2 (n_obj i)) as [ob2|] eqn:E2.
        { destruct (W4 _ _ E2) as (ob3 & E3 & E4 & E5 & [E6|(m & i1 & Y1 & Y2 & Y3 & Y4)]).
          - congruence.
          - destruct (Back _ _ Y1 Y2) as (i2 & Y5 & Y6). destruct (Keep _ _ Y1 Y5) as (Y7 & _). congruence. }
        { destruct (W3 _ _ Q2 E2) as (m & i1 & Y1 & Y2 & Y3 & Y4).
          (* nothing refers to the first object *)
          exfalso. destruct (Back _ _ Y1 Y2) as (i2 & Y5 & Y6). destruct (Keep _ _ Y1 Y5) as (Y7 & _).
          assert (Hz : tot h1 v pend [] (n_obj i) = 0).
          { apply (i_nosp _ _ _ _ _ _ I1). right. eexists. split; [exact Q2|]. reflexivity. }
          assert (G : forall r p, reach h1 r p -> r = p \/ 0 < tot h1 v pend [] p).
          { intros r p R. induction R as [|x obx r p Ex Hi R IHR]; auto. destruct IHR as [->|IHR]; auto.
            right. unfold tot. enough (0 < heldx h1 [] p) by lia. unfold heldx.
            assert (Hx : In x (seq 0 (onext h1))) by (apply in_seq; pose proof (i_bound _ _ _ _ _ _ I1 _ _ Ex); lia).
            assert (Hc : 0 < contrib h1 [] p x) by (unfold contrib; cbn; rewrite Ex; now apply count_occ_In).
            revert Hx. induction (seq 0 (onext h1)) as [|y ys IHy]; intros Hx; [destruct Hx|]. simpl. destruct Hx as [->|Hx]; [lia|]. specialize (IHy Hx). lia. }
          destruct (G _ _ Y4) as [G1|G1]; [congruence|lia]. }
      * destruct (Keep _ _ H4 H2) as (Q1 & Q2 & i1 & Q3 & Q4). rewrite <- Q4 in *. rewrite <- Q2. eapply W2; eauto.
    + intros p ob Hp Hp'. destruct (objs h1 p) as [ob1|] eqn:E1.
      * destruct (W3 _ _ E1 Hp') as (m & i1 & Y1 & Y2 & Y3 & Y4). destruct (Back _ _ Y1 Y2) as (i2 & Y5 & Y6).
        exists m, i2. rewrite Y6. repeat split; auto; [simpl in *; auto|].
        eapply reach_refs; [|exact Y4]. intros q obq Hq. destruct (Sub _ _ Hq) as (obq' & Z1 & Z2 & _). eauto.
      * destruct (mem (n_obj i) ret) eqn:Em.
        { destruct K3 as ((ob' & Q1 & Q2) & Q3). destruct (Nat.eq_dec p (n_obj i)) as [->|Hne]; [congruence|]. rewrite Q3 in E1 by auto. congruence. }
        { exists c, i. apply mem_out in Em. repeat split; simpl; auto. eapply K3; eauto. }
    + intros p ob' Hp. destruct (W4 _ _ Hp) as (ob1 & E1 & E2 & E3 & E4).
      destruct (Sub _ _ E1) as (ob & Z1 & Z2 & Z3 & Z4). exists ob. repeat split; try congruence.
      destruct E4 as [->|(m & i1 & Y1 & Y2 & Y3 & Y4)].
      * destruct Z4 as [->|(-> & Z5)]; auto. right. exists c, i. simpl; auto.
      * right. destruct (Back _ _ Y1 Y2) as (i2 & Y5 & Y6). exists m, i2. repeat split; auto; [simpl in *; auto|congruence].
Qed.

Lemma list_short h v pl pend dy L b : Inv h v pl pend dy L -> length (L b) <= nnext h.
Proof.
  intros I. rewrite <- (seq_length (nnext h) 0). apply NoDup_incl_length.
  - apply (inv_nodup _ _ (i_ring _ _ _ _ _ _ I b)).
  - intros n Hn. apply (i_list _ _ _ _ _ _ I) in Hn as (i & En & _). apply (i_node _ _ _ _ _ _ I) in En as (H & _).
    apply in_seq. lia.
Qed.
Lemma sweep_ok h v pl pend L b ret : Inv h v pl pend [] L ->
  exists h' L', sweep h b ret = Ok h' /\ Inv h' v pl pend [] L' /\ L' b = [] /\ (forall b', b' <> b -> L' b' = L b') /\
    onext h' = onext h /\ swept h h' (L b) ret.
Proof.
  intros I. unfold sweep. pose proof (inv_first _ _ (i_ring _ _ _ _ _ _ I b)) as Hf. cbn [view first] in Hf. rewrite Hf.
  destruct (L b) as [|c l] eqn:HL; cbn [hd_error].
  - exists h, L. split; auto. split; auto. split; auto. split; auto. split; auto. split; [|split; [|split]].
    + intros n i [].
    + intros n i [].
    + intros; congruence.
    + intros p ob' Hp. exists ob'. auto.
  - apply sweep_loop_ok; auto. pose proof (list_short _ _ _ _ _ _ b I) as H. rewrite HL in H. simpl in H. lia.
Qed.

(** *** Leaving a scope *)
Lemma pop_var_ok h v pl o pend L ret : Inv h v pl (o :: pend) [] L ->
  exists h', pop_var ret h o = Ok h' /\ Inv h' v pl pend [] L /\ onext h' = onext h.
Proof.
  intros I.
  assert (T1 : tot h v (o :: pend) [] o = S (tot h v pend [] o)).
  { rewrite tot_cons. destruct (Nat.eq_dec o o); [lia|congruence]. }
  assert (T2 : forall x, x <> o -> tot h v pend [] x = tot h v (o :: pend) [] x).
  { intros x Hx. rewrite tot_cons. destruct (Nat.eq_dec o x); [congruence|lia]. }
  destruct (held_is_live h v pl (o :: pend) [] L o I) as (ob & n & i & Eo & Es & En & Er & Ec & Ek & _ & HL & Hb); [lia|].
  unfold pop_var, get_obj, get_node. rewrite Eo. cbn [ofo rbind]. rewrite Es, En. cbn [ofo rbind].
  destruct ((1 <? n_sh i)%Z || negb (mem o ret)) eqn:Eb.
  - destruct (unref_none_ok _ _ _ _ _ _ _ I) as (h' & E & I' & F & _). exists h'. split; auto. split; auto. apply F.
  - apply orb_false_iff in Eb as (Eb & _). apply Z.ltb_ge in Eb.
    destruct (Z.eqb_spec (n_sh i) 0); [lia|]. cbn [rbind]. eexists. split; [reflexivity|]. split; [|reflexivity].
    change (set_obj (set_node h n None) o (Some {| o_const := o_const ob; o_sp := None; o_refs := o_refs ob |}))
      with (set_node (set_obj h o (Some {| o_const := o_const ob; o_sp := None; o_refs := o_refs ob |})) n None).
    eapply orphan with (h := h) (v := v) (pend := o :: pend); eauto; try reflexivity.
    + lia.
    + apply (i_ring _ _ _ _ _ _ I).
    + apply (i_disj _ _ _ _ _ _ I).
    + apply (i_det _ _ _ _ _ _ I).
    + intros m b. split; [|tauto]. intros H. split; auto. intros ->. eapply HL; eauto.
Qed.
Lemma pop_vars_ok ret : forall vs h v pl pend L, Inv h v pl (vs ++ pend) [] L ->
  exists h', each (pop_var ret) h vs = Ok h' /\ Inv h' v pl pend [] L /\ onext h' = onext h.
Proof.
  induction vs as [|o vs IH]; intros h v pl pend L I; cbn [app each] in *; [eauto|].
  destruct (pop_var_ok _ _ _ _ _ _ ret I) as (h1 & E1 & I1 & O1). rewrite E1. cbn [rbind].
  destruct (IH _ _ _ _ _ I1) as (h2 & E2 & I2 & O2). exists h2. split; auto. split; auto. congruence.
Qed.

(** *** Moving references around *)
Lemma Inv_tot h v pl pend dy L v' pend' : Inv h v pl pend dy L ->
  (forall x, tot h v' pend' dy x = tot h v pend dy x) -> Inv h v' pl pend' dy L.
Proof.
  intros [A1 A2 A3 A4 A5 A6 A7 A8 A9] H. constructor; auto.
  - intros o ob n. rewrite H. apply A6.
  - intros o. rewrite H. apply A7.
  - destruct A9 as (B1 & B2). split; auto. intros o. rewrite H. apply B2.
Qed.
Lemma var_to_pend h v pl pend dy L o : Inv h v pl pend dy L -> 1 <= v o ->
  Inv h (upd1 v o (v o - 1)) pl (o :: pend) dy L.
Proof.
  intros I H. eapply Inv_tot; eauto. intros x. rewrite tot_cons. unfold tot, upd1.
  destruct (Nat.eqb_spec x o) as [->|Hx]; destruct (Nat.eq_dec o _); try congruence; lia.
Qed.
Lemma pend_to_var h v pl pend dy L o : Inv h v pl (o :: pend) dy L -> Inv h (upd1 v o (S (v o))) pl pend dy L.
Proof.
  intros I. eapply Inv_tot; eauto. intros x. rewrite tot_cons. unfold tot, upd1.
  destruct (Nat.eqb_spec x o) as [->|Hx]; destruct (Nat.eq_dec o _); try congruence; lia.
Qed.
(** What a live object holds changes. *)
Lemma Inv_refs h v pl pend L p ob refs' pend' :
  Inv h v pl pend [] L -> objs h p = Some ob ->
  (forall x, count_occ Nat.eq_dec refs' x + count_occ Nat.eq_dec pend' x = count_occ Nat.eq_dec (o_refs ob) x + count_occ Nat.eq_dec pend x) ->
  Inv (set_obj h p (Some (mkobj (o_const ob) (o_sp ob) refs'))) v pl pend' [] L.
Proof.
  intros I Ep H. set (h1 := set_obj _ _ _).
  assert (TT : forall x, tot h1 v pend' [] x = tot h v pend [] x).
  { intros x. unfold tot. assert (Hp : p < onext h) by (eapply i_bound; eauto).
    pose proof (heldx_change h h1 [] [] x p eq_refl Hp) as Hx.
    assert (C1 : contrib h [] x p = count_occ Nat.eq_dec (o_refs ob) x) by (unfold contrib; cbn; now rewrite Ep).
    assert (C2 : contrib h1 [] x p = count_occ Nat.eq_dec refs' x) by (unfold contrib; cbn; now rewrite upd1_eq).
    rewrite C1, C2 in Hx. specialize (H x).
    assert (heldx h1 [] x + count_occ Nat.eq_dec (o_refs ob) x = heldx h [] x + count_occ Nat.eq_dec refs' x); [|lia].
    apply Hx. intros q Hq. unfold contrib. cbn. now rewrite upd1_ne. }
  assert (OO : forall q obq, objs h1 q = Some obq -> exists obq', objs h q = Some obq' /\ o_sp obq' = o_sp obq /\ o_const obq' = o_const obq).
  { intros q obq Hq. cbn in Hq. destruct (Nat.eq_dec q p) as [->|Hne].
    - rewrite upd1_eq in Hq. injection Hq as <-. eauto.
    - rewrite upd1_ne in Hq by auto. eauto. }
  destruct I as [A1 A2 A3 A4 A5 A6 A7 A8 A9]. constructor; auto.
  - intros n i Hn. destruct (A5 n i Hn) as (B1 & obn & B2 & B3). split; auto. cbn.
    destruct (Nat.eq_dec (n_obj i) p) as [Hq|Hne]; [rewrite Hq in *; rewrite upd1_eq|rewrite upd1_ne by auto; eauto].
    eexists. split; [reflexivity|]. cbn. congruence.
  - intros q obq n Hq Hs. rewrite TT. destruct (OO _ _ Hq) as (obq' & E1 & E2 & E3). rewrite <- E3.
    eapply A6; eauto. congruence.
  - intros q Hq. rewrite TT. apply A7. cbn in Hq. destruct (Nat.eq_dec q p) as [->|Hne].
    + rewrite upd1_eq in Hq. destruct Hq as [Hq|(obq & Hq & Hs)]; [discriminate|]. injection Hq as <-. cbn in Hs. eauto.
    + rewrite upd1_ne in Hq by auto. auto.
  - intros q obq Hq. destruct (OO _ _ Hq) as (obq' & E1 & _). eapply A8; eauto.
  - split; [constructor|]. intros q [].
Qed.
Lemma count_remove1 o l x : In o l -> count_occ Nat.eq_dec (o :: remove1 o l) x = count_occ Nat.eq_dec l x.
Proof.
  induction l as [|y l IH]; intros H; [destruct H|]. cbn [remove1]. destruct (Nat.eqb_spec y o) as [->|Hne]; auto.
  destruct H as [->|H]; [congruence|]. specialize (IH H). cbn [count_occ] in *.
  destruct (Nat.eq_dec o x), (Nat.eq_dec y x); lia.
Qed.

(** *** Creating *)
Lemma new_ok c h v pl pend L : Inv h v pl pend [] L -> Inv (new_obj c h) v pl pend [] L.
Proof.
  intros I.
  assert (N : objs h (onext h) = None).
  { destruct (objs h (onext h)) eqn:E; auto. apply (i_bound _ _ _ _ _ _ I) in E. lia. }
  assert (TT : forall x, tot (new_obj c h) v pend [] x = tot h v pend [] x).
  { intros x. unfold tot. f_equal. f_equal. unfold heldx. cbn [new_obj onext].
    rewrite seq_S, map_app, list_sum_app. cbn. unfold contrib at 2. cbn. rewrite upd1_eq. cbn.
    rewrite !Nat.add_0_r. apply sum_ext. intros p Hp. apply in_seq in Hp. unfold contrib. cbn. rewrite upd1_ne; auto. lia. }
  destruct I as [A1 A2 A3 A4 A5 A6 A7 A8 A9]. constructor; auto.
  - intros n i Hn. destruct (A5 n i Hn) as (B1 & ob & B2 & B3). split; auto. exists ob. cbn. rewrite upd1_ne; auto.
    apply A8 in B2. lia.
  - intros o ob n Ho Hs. rewrite TT. cbn in Ho. destruct (Nat.eq_dec o (onext h)) as [->|Hne].
    + rewrite upd1_eq in Ho. injection Ho as <-. discriminate.
    + rewrite upd1_ne in Ho by auto. eapply A6; eauto.
  - intros o Ho. rewrite TT. cbn in Ho. destruct (Nat.eq_dec o (onext h)) as [->|Hne]; [apply A7; auto|].
    rewrite upd1_ne in Ho by auto. auto.
  - intros o ob Ho. cbn in *. destruct (Nat.eq_dec o (onext h)) as [->|Hne]; [lia|].
    rewrite upd1_ne in Ho by auto. apply A8 in Ho. lia.
  - split; [constructor|]. intros q [].
Qed.
Lemma create_ok h v pl pend L o b ob : Inv h v pl pend [] L -> objs h o = Some ob -> o_const ob = false -> o_sp ob = None ->
  exists h' L', create_shared h o b = Ok h' /\ Inv h' v (upd1 pl o b) pend [] L' /\ onext h' = onext h.
Proof.
  intros I Eo Ec Es. unfold create_shared, get_obj. rewrite Eo. cbn [ofo rbind]. rewrite Ec, Es.
  set (n := nnext h). set (h1 := mkmgr (lnk h) _ _ _ _ _ _).
  assert (HL : forall b, ~ In n (L b)).
  { intros b' Hb'. apply (i_list _ _ _ _ _ _ I) in Hb' as (i & En & _). apply (i_node _ _ _ _ _ _ I) in En as (H & _). unfold n in H. lia. }
  assert (Hn : nodes h n = None).
  { destruct (nodes h n) eqn:E; auto. apply (i_node _ _ _ _ _ _ I) in E as (H & _). unfold n in H. lia. }
  destruct (insert_rings h1 L b n) as (c & D & R1 & R2).
  { apply (i_ring _ _ _ _ _ _ I). } { auto. } { apply (i_det _ _ _ _ _ _ I). auto. }
  { apply (i_disj _ _ _ _ _ _ I). } { apply (i_det _ _ _ _ _ _ I). }
  rewrite D. cbn [rbind]. set (h2 := set_obj _ _ _).
  exists h2, (lput L b (L b ++ [n])). split; auto. split; [|reflexivity].
  assert (M : forall m b', In m (lput L b (L b ++ [n]) b') <-> In m (L b') \/ (b' = b /\ m = n)).
  { intros m b'. unfold lput. destruct (Nat.eq_dec b' b) as [->|Hbb].
    - rewrite upd1_eq, in_app_iff. simpl. intuition.
    - rewrite upd1_ne by auto. intuition. }
  assert (Hz : tot h v pend [] o = 0) by (apply (i_nosp _ _ _ _ _ _ I); eauto).
  assert (TT : forall x, tot h2 v pend [] x = tot h v pend [] x).
  { intros x. unfold tot. f_equal. f_equal. apply heldx_same; auto. intros p. unfold contrib. cbn.
    destruct (Nat.eq_dec p o) as [->|Hp]; [rewrite upd1_eq, Eo|rewrite upd1_ne by auto]; auto. }
  assert (Other : forall m i', nodes h m = Some i' -> n_obj i' <> o).
  { intros m i' Hm Hx. destruct (i_node _ _ _ _ _ _ I _ _ Hm) as (_ & ob' & B1 & B2). rewrite Hx in B1. congruence. }
  constructor; auto.
  - intros b1 b2 m H1 H2. apply M in H1. apply M in H2.
    destruct H1 as [H1|(H1 & H1')], H2 as [H2|(H2 & H2')]; subst; auto.
    + eapply (i_disj _ _ _ _ _ _ I); eauto.
    + destruct (HL _ H1).
    + destruct (HL _ H2).
  - intros b' m Hm. apply M in Hm as [Hm|(-> & ->)].
    + destruct (i_list _ _ _ _ _ _ I _ _ Hm) as (i & B1 & B2 & B3 & B4). exists i. cbn.
      rewrite upd1_ne by congruence. rewrite upd1_ne by eauto. auto.
    + eexists. cbn. rewrite upd1_eq. split; [reflexivity|]. cbn. rewrite upd1_eq. auto.
  - intros m i Hm. cbn in *. fold n. destruct (Nat.eq_dec m n) as [->|Hne].
    + rewrite upd1_eq in Hm. injection Hm as <-. cbn. split; [lia|]. rewrite upd1_eq. eauto.
    + rewrite upd1_ne in Hm by auto. destruct (i_node _ _ _ _ _ _ I _ _ Hm) as (B1 & ob' & B2 & B3). fold n in B1. split; [lia|].
      exists ob'. rewrite upd1_ne by eauto. auto.
  - intros x ob' m Hx Hm. rewrite TT. cbn in *. destruct (Nat.eq_dec x o) as [->|Hne].
    + rewrite upd1_eq in Hx. injection Hx as <-. cbn in *. injection Hm as <-. split; auto.
      rewrite upd1_eq. eexists. split; [reflexivity|]. cbn. rewrite Hz. repeat split; auto; try lia.
      intros _ _. rewrite upd1_eq. apply M. auto.
    + rewrite upd1_ne in Hx by auto. destruct (i_obj _ _ _ _ _ _ I _ _ _ Hx Hm) as (Hc & i & A1 & A2 & A3 & A4 & A5).
      split; auto. exists i. rewrite !upd1_ne by congruence. repeat split; auto. intros Y1 Y2. apply M. auto.
  - intros x Hx. rewrite TT. cbn in Hx. destruct (Nat.eq_dec x o) as [->|Hne]; auto.
    rewrite upd1_ne in Hx by auto. eapply i_nosp; eauto.
  - intros x ob' Hx. cbn in *. destruct (Nat.eq_dec x o) as [->|Hne]; [eapply i_bound; eauto|].
    rewrite upd1_ne in Hx by auto. eapply i_bound; eauto.
  - split; [constructor|]. intros q [].
Qed.

(** *** Histories *)
Lemma minus_vars vs : forall h g pend L, Inv h (vars g) (place g) pend [] L ->
  (forall o, count_occ Nat.eq_dec vs o <= vars g o) ->
  place (fold_left minus_var vs g) = place g /\
  Inv h (vars (fold_left minus_var vs g)) (place g) (vs ++ pend) [] L.
Proof.
  intros h g pend L I H.
  assert (E : place (fold_left minus_var vs g) = place g /\
     forall x, vars (fold_left minus_var vs g) x + count_occ Nat.eq_dec vs x = vars g x).
  { clear I. revert g H. induction vs as [|o vs IH]; intros g H; cbn [fold_left]; [simpl; split; [reflexivity|intros; lia]|].
    assert (H1 : 1 <= vars g o) by (specialize (H o); simpl in H; destruct (Nat.eq_dec o o); [lia|congruence]).
    destruct (IH (minus_var g o)) as (E1 & E2).
    { intros x. specialize (H x). cbn in *. unfold upd1. destruct (Nat.eqb_spec x o) as [->|Hx]; destruct (Nat.eq_dec o _); try congruence; lia. }
    split; [exact E1|]. intros x. specialize (E2 x). specialize (H x). cbn in *. unfold upd1 in E2.
    destruct (Nat.eqb_spec x o) as [->|Hx]; destruct (Nat.eq_dec o _); try congruence; lia. }
  destruct E as (E1 & E2). split; auto. eapply Inv_tot; eauto. intros x. specialize (E2 x). unfold tot.
  rewrite count_occ_app. lia.
Qed.
Lemma references_tot h g o : references h g o = tot h (vars g) [] [] o.
Proof. unfold references, tot. rewrite held_heldx. simpl. lia. Qed.

Lemma step_ok a h g L : Inv h (vars g) (place g) [] [] L -> legal a h g ->
  exists h' L', step a h = Ok h' /\ Inv h' (vars (gstep a g)) (place (gstep a g)) [] [] L'.
Proof.
  intros I Hl. destruct a as [c|o b|o|o b|p o|p o b|b ret|b vs ret]; cbn [step gstep legal] in *.
  - exists (new_obj c h), L. split; auto. now apply new_ok.
  - destruct Hl as (ob & E1 & E2 & E3). destruct (create_ok _ _ _ _ _ _ b _ I E1 E2 E3) as (h' & L' & D & I' & _).
    exists h', L'. auto.
  - destruct Hl as (ob & n & i & E1 & E2 & E3 & E4 & E5). rewrite references_tot in E4, E5.
    destruct (share_ok _ _ _ _ _ _ _ _ _ I E1 E2 E3 E4 E5) as (h' & L' & D & I' & _).
    exists h', L'. split; auto. now apply pend_to_var.
  - pose proof (var_to_pend _ _ _ _ _ _ _ I Hl) as I1. destruct b as [b|]; cbn [placed].
    + destruct (unref_some_ok _ _ _ _ _ _ b I1) as (h' & L' & D & I' & _). exists h', L'. auto.
    + destruct (unref_none_ok _ _ _ _ _ _ _ I1) as (h' & D & I' & _). exists h', L. auto.
  - destruct Hl as ((ob & n & i & E1 & E2 & E3 & E4 & E5) & Hp). rewrite references_tot in E4, E5.
    destruct (share_ok _ _ _ _ _ _ _ _ _ I E1 E2 E3 E4 E5) as (h' & L' & D & I' & Ob).
    rewrite D. cbn [rbind]. unfold get_obj. rewrite Ob. destruct (objs h p) as [obp|] eqn:Ep; [|congruence].
    cbn [ofo rbind]. eexists. exists L'. split; [reflexivity|].
    eapply Inv_refs; eauto; [now rewrite Ob|]. intros x. rewrite count_occ_app. simpl. destruct (Nat.eq_dec o x); lia.
  - destruct Hl as (Hpo & ob & Ep & Hi). unfold take_ref. destruct (Nat.eqb_spec o p); [congruence|].
    unfold drop_ref, get_obj. rewrite Ep. cbn [ofo rbind].
    set (h1 := set_obj _ _ _).
    assert (I1 : Inv h1 (vars g) (place g) [o] [] L).
    { eapply Inv_refs; eauto. intros x. pose proof (count_remove1 o (o_refs ob) x Hi) as H. simpl in *. destruct (Nat.eq_dec o x); lia. }
    destruct b as [b|]; cbn [placed].
    + destruct (unref_some_ok _ _ _ _ _ _ b I1) as (h' & L' & D & I' & _). exists h', L'. auto.
    + destruct (unref_none_ok _ _ _ _ _ _ _ I1) as (h' & D & I' & _). exists h', L. auto.
  - destruct (sweep_ok _ _ _ _ _ b ret I) as (h' & L' & D & I' & _). exists h', L'. auto.
  - destruct (minus_vars vs h g [] L I Hl) as (E & I1). rewrite E.
    unfold pop_scope. destruct (pop_vars_ok ret _ _ _ _ _ _ I1) as (h1 & D1 & I2 & _). rewrite D1. cbn [rbind].
    destruct (sweep_ok _ _ _ _ _ b ret I2) as (h' & L' & D & I' & _). exists h', L'. auto.
Qed.
Lemma history_ok : forall l h g L, Inv h (vars g) (place g) [] [] L -> legal_history l h g ->
  exists h' L', run l h = Ok h' /\ Inv h' (vars (ghost_after l g)) (place (ghost_after l g)) [] [] L'.
Proof.
  induction l as [|a l IH]; intros h g L I Hl; cbn [run legal_history] in *.
  - exists h, L. auto.
  - destruct Hl as (Ha & Hl). destruct (step_ok a h g L I Ha) as (h1 & L1 & E & I1). rewrite E. cbn [rbind].
    exact (IH _ _ _ I1 (Hl _ E)).
Qed.
Lemma empty_ok : Inv empty (vars no_ghost) (place no_ghost) [] [] (fun _ => []).
Proof.
  constructor; cbn; try (intros; discriminate); try tauto.
  - intros b. constructor; cbn; auto. constructor.
  - split; reflexivity.
  - split; [constructor|tauto].
Qed.

(** *** Checking that a given history is legal *)
Definition can_shareb (h : mgr) (g : ghost) (o : nat) : bool :=
  match objs h o with
  | Some ob => match o_sp ob with
    | Some n => match nodes h n with
      | Some i => (Z.of_nat (references h g o) <? 65535)%Z && (negb (references h g o =? 0) || (place g o =? n_cr i))
      | None => false end
    | None => false end
  | None => false end.
Definition legalb (a : op) (h : mgr) (g : ghost) : bool :=
  match a with
  | ONew _ | OSweep _ _ => true
  | OCreate o _ => match objs h o with Some ob => negb (o_const ob) && match o_sp ob with None => true | _ => false end | None => false end
  | OShare o => can_shareb h g o
  | OUnref o _ => 1 <=? vars g o
  | OPut p o => can_shareb h g o && match objs h p with Some _ => true | None => false end
  | OTake p o _ => negb (p =? o) && match objs h p with Some ob => mem o (o_refs ob) | None => false end
  | OPop _ vs _ => forallb (fun o => occurrences o vs <=? vars g o) vs
  end.
Fixpoint legal_check (l : list op) (h : mgr) (g : ghost) : bool :=
  match l with
  | [] => true
  | a :: l' => legalb a h g && match step a h with Ok h' => legal_check l' h' (gstep a g) | _ => true end
  end.
Lemma can_shareb_ok h g o : can_shareb h g o = true -> can_share h g o.
Proof.
  unfold can_shareb, can_share. destruct (objs h o) as [ob|]; [|discriminate]. destruct (o_sp ob) as [n|] eqn:Es; [|discriminate].
  destruct (nodes h n) as [i|] eqn:En; [|discriminate]. intros H. apply andb_true_iff in H as (H1 & H2). apply Z.ltb_lt in H1.
  exists ob, n, i. repeat split; auto. intros Hz. rewrite Hz in H2. cbn in H2. now apply Nat.eqb_eq.
Qed.
Lemma legalb_ok a h g : legalb a h g = true -> legal a h g.
Proof.
  destruct a; cbn [legalb legal]; intros H; auto.
  - destruct (objs h o) as [ob|]; [|discriminate]. apply andb_true_iff in H as (H1 & H2). exists ob. split; auto.
    destruct (o_const ob), (o_sp ob); try discriminate; auto.
  - now apply can_shareb_ok.
  - now apply Nat.leb_le.
  - apply andb_true_iff in H as (H1 & H2). split; [now apply can_shareb_ok|]. destruct (objs h p); discriminate.
  - apply andb_prop in H as (Hq & H). split; [intros ->; rewrite Nat.eqb_refl in Hq; discriminate|]. destruct (objs h p) as [ob|]; [|discriminate]. exists ob. split; auto. now apply mem_in.
  - intros o. destruct (in_dec Nat.eq_dec o vars) as [Hi|Hi].
    + rewrite forallb_forall in H. apply H in Hi. now apply Nat.leb_le.
    + unfold occurrences. apply (count_occ_not_In Nat.eq_dec) in Hi. rewrite Hi. lia.
Qed.
Lemma legal_check_ok : forall l h g, legal_check l h g = true -> legal_history l h g.
Proof.
  induction l as [|a l IH]; intros h g H; cbn [legal_check legal_history] in *; auto.
  apply andb_true_iff in H as (H1 & H2). split; [now apply legalb_ok|]. intros h' E. rewrite E in H2. auto.
Qed.
