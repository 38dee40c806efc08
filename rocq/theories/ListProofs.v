From Coq Require Import List Arith Bool Lia Permutation.
From Verif Require Import Base ListModel ListSpec.
Import ListNotations.

(** *** Chains and rings *)
Fixpoint chain (h : links) (l : list nat) : Prop :=
  match l with
  | a :: ((b :: _) as t) => next h a = Some b /\ prev h b = Some a /\ chain h t
  | _ => True
  end.

Definition ring (h : links) (l : list nat) : Prop :=
  match l with
  | [] => True
  | x :: t => chain h (x :: t ++ [x])
  end.

Lemma chain_cons2 h a b t : chain h (a :: b :: t) <-> next h a = Some b /\ prev h b = Some a /\ chain h (b :: t).
Proof. reflexivity. Qed.

Lemma chain_app h a x b : chain h (a ++ x :: b) <-> chain h (a ++ [x]) /\ chain h (x :: b).
Proof.
  induction a as [|y a IH].
  - simpl. tauto.
  - destruct a as [|z a].
    + simpl. destruct b; tauto.
    + cbn [app] in *. rewrite !chain_cons2. rewrite IH. tauto.
Qed.

Lemma chain_snoc h a x y : chain h (a ++ [x; y]) <-> chain h (a ++ [x]) /\ next h x = Some y /\ prev h y = Some x.
Proof. rewrite (chain_app h a x [y]). simpl. tauto. Qed.

Lemma chain_frame h h' l :
  chain h l ->
  (forall a, In a (removelast l) -> next h' a = next h a) ->
  (forall b, In b (tl l) -> prev h' b = prev h b) ->
  chain h' l.
Proof.
  induction l as [|x l IH]; auto.
  destruct l as [|y l]; auto.
  intros (H1 & H2 & H3) Hn Hp. cbn [chain]. split; [|split].
  - rewrite Hn; auto. simpl. auto.
  - rewrite Hp; auto. simpl. auto.
  - apply IH; auto.
    + intros a Ha. apply Hn. simpl. auto.
    + intros b Hb. apply Hp. simpl in *. auto.
Qed.

Lemma ring_rotate h a b : ring h (a ++ b) -> ring h (b ++ a).
Proof.
  destruct a as [|x a]; [rewrite app_nil_r; auto|].
  destruct b as [|y b]; [rewrite app_nil_r; auto|].
  unfold ring. cbn [app]. intros H.
  replace (x :: (a ++ y :: b) ++ [x]) with ((x :: a) ++ y :: (b ++ [x])) in H
    by (simpl; rewrite <- app_assoc; reflexivity).
  apply chain_app in H. destruct H as [H1 H2].
  replace (y :: (b ++ x :: a) ++ [y]) with ((y :: b) ++ x :: (a ++ [y]))
    by (simpl; rewrite <- app_assoc; reflexivity).
  apply chain_app. split; auto.
Qed.

Lemma fset_eq f k v : fset f k v k = v.
Proof. unfold fset. now rewrite Nat.eqb_refl. Qed.
Lemma fset_ne f k v x : x <> k -> fset f k v x = f x.
Proof. intros H. unfold fset. destruct (Nat.eqb_spec x k); congruence. Qed.

(** *** Invariant *)
Definition lastof (l : list nat) : option nat := match rev l with [] => None | x :: _ => Some x end.

Record inv (st : clist) (l : list nat) : Prop := {
  inv_nodup : NoDup l;
  inv_ring : ring (heap st) l;
  inv_first : first st = hd_error l;
  inv_last : last st = lastof l }.

Definition detached (h : links) (n : nat) := prev h n = None /\ next h n = None.
Definition others_detached (st : clist) (l : list nat) := forall n, ~ In n l -> detached (heap st) n.

Lemma lastof_app l x : lastof (l ++ [x]) = Some x.
Proof. unfold lastof. now rewrite rev_app_distr. Qed.

Lemma list_snoc_cases (l : list nat) : l = [] \/ exists m y, l = m ++ [y].
Proof. destruct l using rev_ind; eauto. Qed.

(** What ring membership says about the links of a member. *)
Lemma ring_member h l n : ring h l -> In n l -> exists p q,
  prev h n = Some p /\ next h n = Some q /\ In p l /\ In q l.
Proof.
  intros H Hin. apply in_split in Hin. destruct Hin as (a & b & ->).
  apply ring_rotate in H. cbn [app] in H. unfold ring in H.
  remember (b ++ a) as m.
  assert (HI : forall z, In z (n :: m) -> In z (a ++ n :: b)).
  { subst m. intros z Hz. rewrite in_app_iff. simpl in Hz. rewrite in_app_iff in Hz. simpl. tauto. }
  destruct (list_snoc_cases m) as [->|(m' & y & ->)].
  - simpl in H. exists n, n. destruct H as (? & ? & _). repeat split; auto; apply HI; simpl; auto.
  - assert (Hp : prev h n = Some y).
    { replace (n :: (m' ++ [y]) ++ [n]) with ((n :: m') ++ [y; n]) in H
        by (simpl; rewrite <- app_assoc; reflexivity).
      apply chain_snoc in H. tauto. }
    destruct m' as [|z m'].
    + simpl in H. exists y, y. repeat split; try tauto; apply HI; simpl; auto.
    + cbn [app] in H. apply chain_cons2 in H. destruct H as (Hn & _).
      exists y, z. repeat split; auto; apply HI; simpl; auto.
      rewrite in_app_iff; simpl; auto.
Qed.

Lemma ring_insert_ok st l n :
  inv st l -> ~ In n l ->
  exists st', ring_insert st n = Ret st' tt /\ inv st' (l ++ [n]) /\
    (forall k, ~ In k (l ++ [n]) -> prev (heap st') k = prev (heap st) k /\ next (heap st') k = next (heap st) k).
Proof.
  intros [Hnd Hr Hf Hl] Hn. unfold ring_insert.
  destruct l as [|x t].
  - simpl in Hf, Hl. rewrite Hf. eexists. split; [reflexivity|]. split.
    + constructor; simpl.
      * constructor; simpl; auto using NoDup_nil.
      * rewrite !fset_eq. auto.
      * reflexivity.
      * reflexivity.
    + intros k Hk. simpl in Hk. simpl. rewrite !fset_ne; auto.
  - simpl in Hf. rewrite Hf.
    destruct (list_snoc_cases (x :: t)) as [E|(m & y & E)]; [discriminate|].
    rewrite E, lastof_app in Hl. rewrite Hl.
    assert (Hmy : ~ In y m).
    { rewrite E in Hnd. apply NoDup_remove_2 in Hnd. now rewrite app_nil_r in Hnd. }
    assert (Hxt : ~ In x t) by (inversion Hnd; auto).
    assert (Hny : n <> y). { intros ->. apply Hn. rewrite E. apply in_app_iff. simpl; auto. }
    assert (Hnx : n <> x). { intros ->. apply Hn. simpl; auto. }
    eexists. split; [reflexivity|]. split.
    + constructor; cbn [first last heap].
      * rewrite E in *. apply NoDup_Add with (a := n) (l := m ++ [y]).
        { replace ((m ++ [y]) ++ [n]) with ((m ++ [y]) ++ n :: []) by reflexivity.
          rewrite <- (app_nil_r (m ++ [y])) at 1. apply Add_app. }
        split; auto.
      * cbn [app]. unfold ring.
        assert (H0 : chain (heap st) (x :: t)).
        { unfold ring in Hr.
          replace (x :: t ++ [x]) with ((x :: t) ++ [x]) in Hr by reflexivity.
          rewrite E in *. rewrite <- app_assoc in Hr. cbn [app] in Hr.
          apply chain_snoc in Hr. tauto. }
        replace (x :: (t ++ [n]) ++ [x]) with (m ++ y :: [n; x])
          by (change (x :: (t ++ [n]) ++ [x]) with (((x :: t) ++ [n]) ++ [x]);
              rewrite E, <- !app_assoc; reflexivity).
        apply chain_app. split.
        { rewrite <- E. apply chain_frame with (heap st); auto.
          - intros a Ha. rewrite E, removelast_last in Ha. simpl.
            assert (a <> y) by (intros ->; auto).
            assert (a <> n). { intros ->. apply Hn. rewrite E. apply in_app_iff; auto. }
            rewrite !fset_ne; auto.
          - intros b Hb. simpl in Hb. simpl.
            assert (b <> x) by (intros ->; auto).
            assert (b <> n). { intros ->. apply Hn. simpl; auto. }
            rewrite !fset_ne; auto. }
        { simpl. rewrite (fset_ne _ n _ y), fset_eq by auto.
          rewrite (fset_ne _ x _ n), !fset_eq by auto. auto. }
      * reflexivity.
      * now rewrite lastof_app.
    + intros k Hk. simpl.
      rewrite in_app_iff in Hk.
      assert (k <> x) by (intros ->; apply Hk; simpl; auto).
      assert (k <> n) by (intros ->; apply Hk; simpl; auto).
      assert (k <> y) by (intros ->; apply Hk; rewrite E; rewrite in_app_iff; simpl; auto).
      rewrite !fset_ne; auto.
Qed.

Lemma eqo_spec a n : eqo a n = true <-> a = Some n.
Proof. destruct a; simpl; [rewrite Nat.eqb_eq; split; congruence|split; discriminate]. Qed.

(** Removing the head of a ring of at least two nodes. *)
Lemma ring_unlink_head h x t p q :
  t <> [] -> NoDup (x :: t) -> ring h (x :: t) ->
  prev h x = Some p -> next h x = Some q ->
  ring (set_next (set_prev (set_prev (set_next h p (Some q)) q (Some p)) x None) x None) t
  /\ In p t /\ In q t /\ hd_error t = Some q /\ lastof t = Some p.
Proof.
  intros Ht Hnd Hr Hp Hq.
  destruct t as [|q0 t']; [congruence|]. clear Ht.
  destruct (list_snoc_cases (q0 :: t')) as [E|(t0 & p0 & E)]; [discriminate|].
  unfold ring in Hr.
  assert (Hq0 : q = q0). { cbn [app] in Hr. apply chain_cons2 in Hr. destruct Hr; congruence. }
  assert (Hr1 : chain h ((q0 :: t') ++ [x])).
  { cbn [app] in *. apply chain_cons2 in Hr. destruct Hr as (_ & _ & Hr). exact Hr. }
  rewrite E, <- app_assoc in Hr1. cbn [app] in Hr1. apply chain_snoc in Hr1.
  destruct Hr1 as (Hr1 & _ & Hp0).
  assert (p = p0) by congruence. subst p0 q0. clear Hp0.
  assert (Hx : ~ In x (q :: t')) by (inversion Hnd; auto).
  assert (Hndt : NoDup (q :: t')) by (inversion Hnd; auto).
  assert (HpIn : In p (q :: t')) by (rewrite E; apply in_app_iff; simpl; auto).
  repeat split.
  - unfold ring. replace (q :: t' ++ [q]) with (t0 ++ [p; q])
      by (change (q :: t' ++ [q]) with ((q :: t') ++ [q]); rewrite E, <- app_assoc; reflexivity).
    apply chain_snoc. split.
    + apply chain_frame with h; auto.
      * intros a Ha. rewrite removelast_last in Ha. simpl.
        assert (a <> p). { intros ->. rewrite E in Hndt. apply NoDup_remove_2 in Hndt.
                           rewrite app_nil_r in Hndt. auto. }
        assert (a <> x). { intros ->. apply Hx. rewrite E. apply in_app_iff; auto. }
        rewrite !fset_ne; auto.
      * intros b Hb. rewrite <- E in Hb. simpl in Hb. simpl.
        assert (b <> q). { intros ->. inversion Hndt; auto. }
        assert (b <> x). { intros ->. apply Hx; simpl; auto. }
        rewrite !fset_ne; auto.
    + assert (p <> x) by (intros ->; auto).
      assert (q <> x) by (intros ->; apply Hx; simpl; auto).
      simpl. split.
      * rewrite fset_ne by auto. now rewrite fset_eq.
      * rewrite fset_ne by auto. now rewrite fset_eq.
  - exact HpIn.
  - simpl; auto.
  - rewrite E. apply lastof_app.
Qed.

Lemma chain_ext h h' l : (forall k, next h' k = next h k) -> (forall k, prev h' k = prev h k) ->
  chain h l -> chain h' l.
Proof. intros Hn Hp H. apply chain_frame with h; auto. Qed.

Lemma ring_remove_ok b st l1 n l2 :
  inv st (l1 ++ n :: l2) ->
  exists st', ring_remove b st n = Ret st' tt /\ inv st' (l1 ++ l2) /\ detached (heap st') n /\
    (forall k, ~ In k (l1 ++ n :: l2) -> prev (heap st') k = prev (heap st) k /\ next (heap st') k = next (heap st) k).
Proof.
  intros [Hnd Hr Hf Hl].
  assert (Hin : In n (l1 ++ n :: l2)) by (apply in_app_iff; simpl; auto).
  destruct (ring_member _ _ _ Hr Hin) as (p & q & Hp & Hq & HpI & HqI).
  assert (Hr' : ring (heap st) (n :: l2 ++ l1)) by (apply ring_rotate in Hr; exact Hr).
  assert (Hnd' : NoDup (n :: l2 ++ l1)).
  { apply NoDup_cons_iff. apply NoDup_remove in Hnd. destruct Hnd as [Ha Hb]. split.
    - rewrite in_app_iff in *. tauto.
    - apply (Permutation_NoDup (Permutation_app_comm l1 l2)); auto. }
  unfold ring_remove. rewrite Hp, Hq. cbn [eqo].
  destruct (list_snoc_cases (l2 ++ l1)) as [E|(m & y & E)].
  - (* single node *)
    apply app_eq_nil in E. destruct E; subst. simpl in Hr. destruct Hr as (Hr1 & Hr2 & _).
    assert (p = n) by congruence. assert (q = n) by congruence. subst.
    rewrite !Nat.eqb_refl. simpl. eexists. split; [reflexivity|]. split; [|split].
    + constructor; simpl; auto. constructor.
    + split; simpl; apply fset_eq.
    + intros k Hk. simpl in Hk. simpl. rewrite !fset_ne; auto.
  - assert (Hne : l2 ++ l1 <> []) by (rewrite E; destruct m; discriminate).
    destruct (ring_unlink_head _ _ _ _ _ Hne Hnd' Hr' Hp Hq) as (Hring & HpT & HqT & Hhd & Hla).
    assert (Hnp : n <> p) by (intros ->; inversion Hnd'; auto).
    assert (Hnq : n <> q) by (intros ->; inversion Hnd'; auto).
    destruct (Nat.eqb_spec p n); [congruence|]. cbn [andb].
    simpl next. simpl prev.
    rewrite (fset_ne _ p _ n) by auto. rewrite Hq, Hp.
    eexists. split; [reflexivity|]. split; [|split].
    + constructor; cbn [first last heap].
      * now apply NoDup_remove in Hnd.
      * apply ring_rotate. exact Hring.
      * destruct l1 as [|z l1].
        { simpl in Hf. rewrite Hf. cbn [eqo]. rewrite Nat.eqb_refl. cbn [app].
          rewrite app_nil_r in Hhd. congruence. }
        { cbn [app hd_error] in *. rewrite Hf. cbn [eqo].
          destruct (Nat.eqb_spec z n) as [->|]; auto.
          inversion Hnd as [|? ? Hz _]; subst. exfalso. apply Hz. apply in_app_iff; simpl; auto. }
      * destruct (list_snoc_cases l2) as [->|(l2' & w & ->)].
        { rewrite lastof_app in Hl. rewrite Hl. cbn [eqo]. rewrite Nat.eqb_refl, andb_true_r.
          rewrite app_nil_r. cbn [app] in Hla. rewrite Hla.
          destruct b; auto. destruct l1 as [|z l1]; [simpl in Hla; discriminate|].
          cbn [app hd_error] in Hf. rewrite Hf. cbn [eqo].
          destruct (Nat.eqb_spec z n) as [->|]; auto.
          inversion Hnd as [|? ? Hz _]; subst. exfalso. apply Hz. apply in_app_iff; simpl; auto. }
        { change (n :: l2' ++ [w]) with ((n :: l2') ++ [w]) in Hl.
          rewrite app_assoc in Hl. rewrite lastof_app in Hl. rewrite Hl.
          cbn [eqo]. rewrite app_assoc, lastof_app.
          destruct (Nat.eqb_spec w n) as [->|]; [|now rewrite andb_false_r].
          exfalso. inversion Hnd' as [|? ? Hz _]; subst. apply Hz. rewrite !in_app_iff; simpl; auto. }
    + split; simpl; apply fset_eq.
    + intros k Hk. simpl.
      assert (k <> n) by (intros ->; auto). assert (k <> p) by (intros ->; auto).
      assert (k <> q) by (intros ->; auto). rewrite !fset_ne; auto.
Qed.

(** *** Traversal *)
Lemma walk_chain_fwd h stop : forall l x,
  ~ In stop l -> chain h (x :: l ++ [stop]) -> forall fuel, length l < fuel ->
  walk_loop fuel (next h) stop x = Some (x :: l).
Proof.
  induction l as [|y l IH]; intros x Hs Hc fuel Hf; (destruct fuel as [|fuel]; [simpl in Hf; lia|]).
  - simpl in *. destruct Hc as (Hc & _). rewrite Hc, Nat.eqb_refl. reflexivity.
  - cbn [app] in Hc. apply chain_cons2 in Hc. destruct Hc as (H1 & H2 & H3).
    cbn [walk_loop]. rewrite H1. destruct (Nat.eqb_spec y stop) as [->|_].
    + exfalso; apply Hs; simpl; auto.
    + rewrite IH; auto; simpl in *; try lia; tauto.
Qed.

Lemma walk_chain_bwd h stop : forall l x,
  ~ In stop l -> chain h (stop :: l ++ [x]) -> forall fuel, length l < fuel ->
  walk_loop fuel (prev h) stop x = Some (x :: rev l).
Proof.
  induction l as [|y l IH] using rev_ind; intros x Hs Hc fuel Hf; (destruct fuel as [|fuel]; [simpl in Hf; lia|]).
  - simpl in *. destruct Hc as (_ & Hc & _). rewrite Hc, Nat.eqb_refl. reflexivity.
  - rewrite app_length in Hf; simpl in Hf.
    replace (stop :: (l ++ [y]) ++ [x]) with ((stop :: l) ++ [y; x]) in Hc
      by (simpl; rewrite <- app_assoc; reflexivity).
    apply chain_snoc in Hc. destruct Hc as (H1 & H2 & H3).
    cbn [walk_loop]. rewrite H3. rewrite in_app_iff in Hs. destruct (Nat.eqb_spec y stop) as [->|_].
    + exfalso; apply Hs; simpl; auto.
    + rewrite IH; auto; simpl in *; try lia. now rewrite rev_app_distr.
Qed.

Lemma walk_forward_ok st l : inv st l -> walk_forward (S (length l)) st = Some l.
Proof.
  intros [Hnd Hr Hf Hl]. unfold walk_forward. rewrite Hf.
  destruct l as [|x t]; auto. cbn [hd_error].
  apply walk_chain_fwd; simpl in *; auto. now inversion Hnd.
Qed.

Lemma walk_backward_ok st l : inv st l -> walk_backward (S (length l)) st = Some (rev l).
Proof.
  intros [Hnd Hr Hf Hl]. unfold walk_backward.
  destruct (list_snoc_cases l) as [->|(m & y & ->)].
  - rewrite Hl. reflexivity.
  - rewrite Hl, lastof_app. rewrite rev_app_distr. cbn [rev app].
    apply walk_chain_bwd.
    + apply NoDup_remove_2 in Hnd. now rewrite app_nil_r in Hnd.
    + apply ring_rotate in Hr. cbn [app] in Hr. exact Hr.
    + rewrite app_length; simpl; lia.
Qed.

(** *** Histories *)
Lemma attached_in n l : attached n l = true <-> In n l.
Proof.
  unfold attached. rewrite existsb_exists. split.
  - intros (x & H & E). apply Nat.eqb_eq in E. congruence.
  - intros H. exists n. rewrite Nat.eqb_refl. auto.
Qed.

Lemma filter_out_notin n l : ~ In n l -> filter (fun m => negb (Nat.eqb n m)) l = l.
Proof.
  induction l as [|x l IH]; simpl; auto. intros H.
  destruct (Nat.eqb_spec n x) as [->|]; [tauto|]. simpl. rewrite IH; auto.
Qed.

Lemma filter_out_split n l1 l2 : NoDup (l1 ++ n :: l2) ->
  filter (fun m => negb (Nat.eqb n m)) (l1 ++ n :: l2) = l1 ++ l2.
Proof.
  intros H. apply NoDup_remove_2 in H. rewrite in_app_iff in H.
  rewrite filter_app. cbn [filter]. rewrite Nat.eqb_refl. simpl.
  rewrite !filter_out_notin; auto.
Qed.

Lemma inv_empty : inv cl_empty [] /\ others_detached cl_empty [].
Proof.
  split.
  - constructor; simpl; auto. constructor.
  - intros n _. split; reflexivity.
Qed.

Lemma cl_insert_ok st l n : inv st l -> others_detached st l ->
  if attached n l then cl_insert st n = Exc st
  else exists st', cl_insert st n = Ret st' tt /\ inv st' (l ++ [n]) /\ others_detached st' (l ++ [n]).
Proof.
  intros HI HD. destruct (attached n l) eqn:E.
  - apply attached_in in E. destruct (ring_member _ _ _ (inv_ring _ _ HI) E) as (p & q & Hp & Hq & _).
    unfold cl_insert. now rewrite Hq.
  - assert (Hn : ~ In n l) by (intros H; apply attached_in in H; congruence).
    destruct (HD n Hn) as (Dp & Dn). unfold cl_insert. rewrite Dp, Dn.
    destruct (ring_insert_ok st l n HI Hn) as (st' & E' & I' & F').
    exists st'. split; auto. split; auto. intros k Hk.
    destruct (F' _ Hk) as (F1 & F2). destruct (HD k) as (G1 & G2).
    + intros Hi; apply Hk; apply in_app_iff; auto.
    + split; congruence.
Qed.

Lemma cl_remove_ok st l n : inv st l -> others_detached st l ->
  if attached n l then
    exists st', cl_remove st n = Ret st' tt /\ inv st' (filter (fun m => negb (Nat.eqb n m)) l)
      /\ others_detached st' (filter (fun m => negb (Nat.eqb n m)) l)
  else cl_remove st n = Exc st.
Proof.
  intros HI HD. destruct (attached n l) eqn:E.
  - apply attached_in in E. destruct (ring_member _ _ _ (inv_ring _ _ HI) E) as (p & q & Hp & Hq & _).
    unfold cl_remove. rewrite Hp, Hq.
    apply in_split in E. destruct E as (l1 & l2 & ->).
    rewrite filter_out_split by apply HI.
    destruct (ring_remove_ok false st l1 n l2 HI) as (st' & E' & I' & D' & F').
    exists st'. split; auto. split; auto. intros k Hk.
    destruct (Nat.eq_dec k n) as [->|Ne]; auto.
    assert (~ In k (l1 ++ n :: l2)).
    { intros H. apply Hk. rewrite in_app_iff in *. simpl in H. destruct H as [|[|]]; auto. congruence. }
    destruct (F' _ H) as (F1 & F2). destruct (HD _ H). split; congruence.
  - assert (Hn : ~ In n l) by (intros H; apply attached_in in H; congruence).
    destruct (HD n Hn) as (Dp & Dn). unfold cl_remove. now rewrite Dp, Dn.
Qed.

Lemma lrun_ok os : forall st l, inv st l -> others_detached st l ->
  exists st', lrun os st = Some (st', snd (seq_lrun os l)) /\ inv st' (fst (seq_lrun os l))
    /\ others_detached st' (fst (seq_lrun os l)).
Proof.
  induction os as [|o os IH]; intros st l HI HD; [simpl; eauto|].
  destruct o as [n|n]; cbn [lrun seq_lrun].
  - pose proof (cl_insert_ok st l n HI HD) as H. destruct (attached n l).
    + rewrite H. destruct (IH st l HI HD) as (st' & E & I' & D'). rewrite E.
      destruct (seq_lrun os l). simpl in *. eauto.
    + destruct H as (st1 & E1 & I1 & D1). rewrite E1.
      destruct (IH st1 _ I1 D1) as (st' & E & I' & D'). rewrite E.
      destruct (seq_lrun os (l ++ [n])). simpl in *. eauto.
  - pose proof (cl_remove_ok st l n HI HD) as H. destruct (attached n l).
    + destruct H as (st1 & E1 & I1 & D1). rewrite E1.
      destruct (IH st1 _ I1 D1) as (st' & E & I' & D'). rewrite E.
      destruct (seq_lrun os (filter _ l)). simpl in *. eauto.
    + rewrite H. destruct (IH st l HI HD) as (st' & E & I' & D'). rewrite E.
      destruct (seq_lrun os l). simpl in *. eauto.
Qed.

(** *** dettachAllNodes *)
Lemma detach_loop_ok : forall l st fuel, inv st l -> others_detached st l -> l <> [] ->
  length l <= fuel ->
  exists st', detach_loop fuel (Some cl_remove) (hd_error l) st = Some (Ret st' tt) /\ inv st' []
    /\ others_detached st' [].
Proof.
  induction l as [|x l IH]; intros st fuel HI HD Hne Hf; [congruence|].
  destruct fuel as [|fuel]; [simpl in Hf; lia|].
  cbn [detach_loop hd_error].
  pose proof (cl_remove_ok st (x :: l) x HI HD) as H.
  assert (Ha : attached x (x :: l) = true) by (apply attached_in; simpl; auto).
  rewrite Ha in H. destruct H as (st1 & E1 & I1 & D1).
  pose proof (filter_out_split x [] l (inv_nodup _ _ HI)) as Hfo. cbn [app] in Hfo.
  rewrite Hfo in I1, D1.
  rewrite E1. rewrite (inv_first _ _ I1).
  destruct l as [|y l].
  - simpl. eauto.
  - cbn [hd_error].
    assert (Hnx : next (heap st) x = Some y).
    { pose proof (inv_ring _ _ HI) as Hr. simpl in Hr. tauto. }
    rewrite Hnx. apply (IH st1 fuel I1 D1); [congruence|]. simpl in *. lia.
Qed.

Lemma detach_null_loops st l : inv st l -> l <> [] -> forall fuel cur, In cur l ->
  detach_loop fuel None (Some cur) st = None.
Proof.
  intros HI Hne fuel. induction fuel as [|k IH]; intros cur Hc; auto.
  cbn [detach_loop]. rewrite (inv_first _ _ HI). destruct l as [|x l]; [congruence|]. cbn [hd_error].
  destruct (ring_member _ _ _ (inv_ring _ _ HI) Hc) as (p & q & _ & Hq & _ & HqI).
  rewrite Hq. now apply IH.
Qed.
