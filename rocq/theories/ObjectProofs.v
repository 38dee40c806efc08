From Coq Require Import List ZArith Lia Bool.
From Verif Require Import Base MapModel MapSpec MapProofs MapProps VectorModel ValueModel ArrayModel ArraySpec ArrayProofs
  ObjectModel ObjectSpec.
Import ListNotations.
Open Scope Z_scope.

(** *** The map of an object *)
Definition smrep (v : fields) (kps : list (list Z * nat)) : Prop := MapProofs.mrep (list Z) nat strcmp 16 v kps.
Lemma sm_get v l k : smrep v l -> m_get strcmp v k = Ret v (lookup streqb k l).
Proof. apply (MapProofs.get_ok _ _ strcmp streqb 16 STR_CAP strcmp_eq strcmp_opp strcmp_trans streqb_eq (proj1 slot16) str_cap_ok (proj2 slot16)). Qed.
Lemma sm_exist v l k : smrep v l -> m_exist strcmp v k = Ret v (present streqb k l).
Proof. apply (exist_ok _ _ strcmp streqb 16 STR_CAP strcmp_eq strcmp_opp strcmp_trans streqb_eq (proj1 slot16) str_cap_ok (proj2 slot16)). Qed.
Lemma sm_set v l k p : smrep v l -> Z.of_nat (length (put streqb k p l)) <= STR_CAP ->
  exists v', str_set v k p = Ret v' tt /\ smrep v' (put streqb k p l).
Proof.
  apply (set_ok _ _ strcmp streqb 16 (fun n => n) STR_CAP strcmp_eq strcmp_opp strcmp_trans streqb_eq (proj1 slot16)
    str_cap_ok (proj2 slot16) (fun n _ => eq_refl)).
Qed.
Lemma sm_erase v l k : smrep v l -> Z.of_nat (length l) <= STR_CAP ->
  if present streqb k l then exists v', m_erase strcmp (fun n => n) v k = Ret v' tt /\ smrep v' (del streqb k l)
  else m_erase strcmp (fun n => n) v k = Exc v.
Proof.
  apply (MapProofs.erase_ok _ _ strcmp streqb 16 (fun n => n) STR_CAP strcmp_eq strcmp_opp strcmp_trans streqb_eq (proj1 slot16)
    str_cap_ok (proj2 slot16) (fun n _ => eq_refl)).
Qed.
Lemma sm_iterate v l : smrep v l -> m_iterate v = Ret v l.
Proof. apply (iterate_ok _ _ strcmp 16 STR_CAP str_cap_ok). Qed.
Lemma sm_count v l : smrep v l -> m_count v = Z.of_nat (length l).
Proof. apply count_ok. Qed.
Lemma sm_cleared b : smrep (mkmap [] 0 ListModel.cl_empty (fun _ => None) (fun _ => None) b) [].
Proof. apply (rep_empty_gen _ _ strcmp 16 STR_CAP (proj1 slot16) str_cap_ok (proj2 slot16)). Qed.
Lemma sm_keys v l : smrep v l -> NoDup (List.map fst l).
Proof.
  intros (E & T & R & ->). rewrite map_map. exact (r_keys _ _ _ _ _ _ _ R).
Qed.

(** *** Fields *)
Lemma same_spec a b : reflect (a = b) (same a b).
Proof. unfold same. destruct (list_eq_dec Z.eq_dec a b); constructor; auto. Qed.
Lemma same_streqb a b : streqb a b = same a b.
Proof.
  destruct (same_spec a b) as [H|H]; [now apply streqb_eq|].
  destruct (streqb a b) eqn:E; auto. apply streqb_eq in E. congruence.
Qed.
Definition onode (m : blocks) (a : list Z * nat) (b : list Z * stk) : Prop :=
  fst a = fst b /\ load m (snd a) = Some (snd b).
Definition orep (m : blocks) (v : fields) (kps : list (list Z * nat)) (l : obj) : Prop :=
  smrep v kps /\ NoDup (List.map snd kps) /\ Forall2 (onode m) kps l.

Lemma orep_len m v kps l : orep m v kps l -> length kps = length l.
Proof. intros (_ & _ & F). now apply Forall2_length in F. Qed.
Lemma nodes_keys m kps l : Forall2 (onode m) kps l -> List.map fst kps = List.map fst l.
Proof. induction 1 as [|? ? ? ? [E _]]; simpl; congruence. Qed.
Lemma nodes_lt m kps l p : Forall2 (onode m) kps l -> In p (List.map snd kps) -> (p < length m)%nat.
Proof.
  induction 1 as [|? ? ? ? [_ L] F IH]; simpl; [tauto|]. intros [<-|H]; auto. now apply load_lt in L.
Qed.
Lemma orep_nodup m v kps l : orep m v kps l -> NoDup (List.map fst l).
Proof. intros (R & _ & F). rewrite <- (nodes_keys _ _ _ F). eapply sm_keys; eauto. Qed.

Lemma field_nil k : field [] k = None. Proof. reflexivity. Qed.
Lemma field_cons e l k : field (e :: l) k = if same (fst e) k then Some (snd e) else field l k.
Proof. unfold field. cbn [find]. now destruct (same (fst e) k). Qed.
Lemma field_none l k : field l k = None <-> ~ In k (List.map fst l).
Proof.
  induction l as [|e l IH]; [simpl; tauto|]. rewrite field_cons. cbn [List.map In].
  destruct (same_spec (fst e) k); [split; [discriminate|tauto]|]. rewrite IH. tauto.
Qed.
Lemma lookup_field m kps l k : Forall2 (onode m) kps l ->
  match lookup streqb k kps with
  | Some p => exists x, field l k = Some x /\ load m p = Some x /\ In p (List.map snd kps)
  | None => field l k = None
  end.
Proof.
  induction 1 as [|[k' p] e kps l [E L] F IH]; cbn [lookup]; [apply field_nil|]. cbn [fst snd] in *.
  rewrite field_cons, <- E, same_streqb. destruct (same_spec k' k).
  - exists (snd e). simpl. auto.
  - destruct (lookup streqb k kps); auto. destruct IH as (x & H1 & H2 & H3). exists x. simpl. auto.
Qed.
Lemma present_field m kps l k : Forall2 (onode m) kps l ->
  present streqb k kps = match field l k with Some _ => true | None => false end.
Proof.
  intros F. apply (lookup_field _ _ _ k) in F. unfold present. destruct (lookup streqb k kps).
  - destruct F as (x & -> & _). reflexivity.
  - now rewrite F.
Qed.

Lemma o_get_ok m v kps l k : orep m v kps l ->
  o_get (mko m v) k = Ret (mko m v) (match field l k with Some x => x | None => Stk 0 P_UNDEFINED end).
Proof.
  intros (R & N & F). unfold o_get. cbn [flds]. rewrite (sm_get _ _ _ R).
  apply (lookup_field _ _ _ k) in F. destruct (lookup streqb k kps).
  - destruct F as (x & -> & L & _). unfold o_load. cbn [omem]. now rewrite L.
  - now rewrite F.
Qed.
Lemma o_exists_ok m v kps l k : orep m v kps l ->
  o_exists (mko m v) k = Ret (mko m v) (match field l k with Some _ => true | None => false end).
Proof.
  intros (R & N & F). unfold o_exists. cbn [flds omem]. rewrite (sm_exist _ _ _ R). cbn [olift].
  now rewrite (present_field _ _ _ _ F).
Qed.
Lemma o_length_ok m v kps l : orep m v kps l -> o_length (mko m v) = Z.of_nat (length l).
Proof. intros A. rewrite <- (orep_len _ _ _ _ A). destruct A as (R & _). apply (sm_count _ _ R). Qed.
Lemma o_keys_ok m v kps l : orep m v kps l -> o_keys (mko m v) = Ret (mko m v) (List.map fst l).
Proof.
  intros (R & _ & F). unfold o_keys. cbn [flds omem]. rewrite (sm_iterate _ _ R). cbn [olift bind].
  now rewrite (nodes_keys _ _ _ F).
Qed.

(** *** Changing an object *)
Definition addrs (kps : list (list Z * nat)) := List.map snd kps.

Lemma onode_frame m m' kps l qs qs' : Forall2 (onode m) kps l -> frame m m' qs qs' ->
  (forall p, In p (addrs kps) -> ~ In p qs) -> Forall2 (onode m') kps l.
Proof.
  intros F (_ & S & _) D. apply (Forall2_weak _ _ _ _ F). intros e x He [E L]. split; auto.
  rewrite S; auto.
  - now apply load_lt in L.
  - apply D. apply in_map. auto.
Qed.
Lemma orep_frame m m' v kps l qs qs' : orep m v kps l -> frame m m' qs qs' ->
  (forall p, In p (addrs kps) -> ~ In p qs) -> orep m' v kps l.
Proof. intros (R & N & F) Fr D. split; auto. split; auto. eapply onode_frame; eauto. Qed.

Lemma put_new {V} k (v : V) l : lookup streqb k l = None -> put streqb k v l = l ++ [(k, v)].
Proof.
  induction l as [|[k' v'] l IH]; simpl; auto. destruct (streqb k' k); [discriminate|]. intros H. now rewrite IH.
Qed.

(** Writing the block of a field. *)
Lemma write_field m : forall kps l k p x, Forall2 (onode m) kps l -> NoDup (addrs kps) -> NoDup (List.map fst kps) ->
  lookup streqb k kps = Some p -> (p < length m)%nat ->
  Forall2 (onode (upd m p (Some x))) kps (List.map (fun e => if same (fst e) k then (k, x) else e) l).
Proof.
  intros kps l k p x F. induction F as [|[k' q] [k2 y] kps l [E L] F IH]; intros N K; cbn [lookup]; [discriminate|].
  cbn [fst snd addrs List.map] in *. subst k2. inversion N as [|? ? N1 N2]; subst. inversion K as [|? ? K1 K2]; subst.
  rewrite same_streqb. intros Hl Hp. destruct (same_spec k' k) as [<-|Hk].
  - inversion Hl; subst q. constructor.
    + split; auto. cbn [snd]. now apply load_upd_eq.
    + assert (Hno : List.map (fun e : list Z * stk => if same (fst e) k' then (k', x) else e) l = l).
      { rewrite <- (map_id l) at 2. apply map_ext_in. intros [k2 z] Hin. cbn [fst]. destruct (same_spec k2 k') as [->|]; auto.
        exfalso. apply K1. rewrite (nodes_keys _ _ _ F). change k' with (fst (k', z)). now apply in_map. }
      rewrite Hno. apply (Forall2_weak _ _ _ _ F). intros [k2 q] [k3 z] Hin [E' L']. split; auto. cbn [snd] in *.
      rewrite load_upd_ne; auto. intros ->. apply N1. change q with (snd (k2, q)). now apply in_map.
  - constructor; [|now apply IH].
    split; auto. cbn [snd] in *. rewrite load_upd_ne; auto. intros ->. apply N1.
    clear -Hl. unfold addrs. induction kps as [|[k2 q2] r IH]; simpl in *; [discriminate|].
    destruct (streqb k2 k); [inversion Hl; auto|auto].
Qed.
Lemma lookup_addr {V} k (l : list (list Z * V)) p : lookup streqb k l = Some p -> In p (List.map snd l).
Proof. induction l as [|[k2 q2] r IH]; simpl; [discriminate|]. destruct (streqb k2 k); [intros H; inversion H; auto|auto]. Qed.

Lemma obj_set m v kps l var k x : orep m v kps l ->
  Z.of_nat (length (with_field l k (stored var x))) <= STR_CAP ->
  exists m' v' kps', o_set var (mko m v) k x = Ret (mko m' v') tt /\
    orep m' v' kps' (with_field l k (stored var x)) /\ frame m m' (addrs kps) (addrs kps').
Proof.
  intros A Hl. pose proof A as (R & N & F). pose proof (lookup_field _ _ _ k F) as Lf.
  unfold o_set, o_slot. cbn [flds omem]. rewrite (sm_get _ _ _ R). unfold with_field in *.
  destruct (lookup streqb k kps) as [p|] eqn:El.
  - destruct Lf as (y & Ey & Lp & Ip). rewrite Ey in *. cbn [bind]. unfold o_store. cbn [omem flds]. rewrite Lp.
    pose proof (load_lt _ _ _ Lp) as Hp.
    eexists _, _, kps. split; [reflexivity|]. split.
    + split; auto. split; auto. eapply write_field; eauto. eapply sm_keys; eauto.
    + split; [rewrite upd_length; lia|]. split; auto.
      intros q Hq Hn. rewrite load_upd_ne; auto. intros ->. auto.
  - rewrite Lf in *. destruct (sm_set v kps k (length m) R) as (v' & E & R').
    { rewrite put_new by auto. rewrite app_length in *. cbn [length] in *. rewrite (orep_len _ _ _ _ A). auto. }
    rewrite E. cbn [olift bind]. unfold o_store. cbn [omem flds]. rewrite load_new.
    rewrite put_new in R' by auto.
    eexists _, _, (kps ++ [(k, length m)]). split; [reflexivity|].
    assert (Hm : forall p, (p < length m)%nat ->
      load (upd (m ++ [Some k_undefined]) (length m) (Some (stored var x))) p = load m p).
    { intros p Hp. rewrite load_upd_ne by lia. now apply load_app. }
    split.
    + split; [exact R'|]. split.
      * rewrite map_app. cbn [List.map snd].
        assert (NoDup (length m :: addrs kps)).
        { constructor; auto. intros H. eapply nodes_lt in H; eauto. lia. }
        eapply NoDup_Add; [apply (Add_app (length m) (List.map snd kps) [])|]. rewrite app_nil_r. inversion H; auto.
      * apply Forall2_app.
        -- apply (Forall2_weak _ _ _ _ F). intros e y He [E1 L1]. split; auto. rewrite Hm; auto. now apply load_lt in L1.
        -- constructor; auto. split; auto. cbn [snd]. apply load_upd_eq. rewrite app_length. simpl. lia.
    + split; [rewrite upd_length, app_length; lia|]. split; [auto|].
      intros p Hp. unfold addrs in Hp. rewrite map_app in Hp. apply in_app_or in Hp. destruct Hp as [Hp|[<-|[]]]; auto. right.
      rewrite upd_length, app_length. simpl. lia.
Qed.

Lemma free_ok m v p x : load m p = Some x -> o_free (mko m v) p = Ret (mko (upd m p None) v) tt.
Proof. intros L. unfold o_free. cbn [omem flds]. now rewrite L. Qed.

Lemma del_nodes m : forall kps l k p, Forall2 (onode m) kps l -> NoDup (addrs kps) -> NoDup (List.map fst kps) ->
  lookup streqb k kps = Some p ->
  Forall2 (onode (upd m p None)) (del streqb k kps) (without l k) /\ NoDup (addrs (del streqb k kps)) /\
  incl (addrs (del streqb k kps)) (addrs kps).
Proof.
  intros kps l k p F. induction F as [|[k' q] [k2 y] kps l [E L] F IH]; intros N K; cbn [lookup]; [discriminate|].
  cbn [fst snd addrs List.map] in *. subst k2. inversion N as [|? ? N1 N2]; subst. inversion K as [|? ? K1 K2]; subst.
  cbn [del without filter fst]. rewrite same_streqb. destruct (same_spec k' k) as [<-|Hk]; cbn [negb]; intros Hl.
  - inversion Hl; subst q. split; [|split; [auto|unfold incl; simpl; auto]].
    assert (Hno : filter (fun e : list Z * stk => negb (same (fst e) k')) l = l).
    { clear -K1 F. rewrite (nodes_keys _ _ _ F) in K1. clear F. induction l as [|[k2 z] l IH]; auto. cbn [filter fst List.map In] in *.
      destruct (same_spec k2 k') as [->|]; [tauto|]. cbn [negb]. f_equal. tauto. }
    unfold without. rewrite Hno. apply (Forall2_weak _ _ _ _ F). intros [k2 q] [k3 z] Hin [E' L']. split; auto. cbn [snd] in *.
    rewrite load_upd_ne; auto. intros ->. apply N1. change q with (snd (k2, q)). now apply in_map.
  - destruct (IH N2 K2 Hl) as (I1 & I2 & I3). split; [|split].
    + constructor; auto. split; auto. cbn [snd] in *. rewrite load_upd_ne; auto. intros ->. apply N1. eapply lookup_addr; eauto.
    + cbn [addrs List.map snd]. constructor; auto.
    + intros z [<-|Hz]; simpl; auto.
Qed.
Lemma del_absent {V} k (l : list (list Z * V)) : lookup streqb k l = None -> del streqb k l = l.
Proof. induction l as [|[k2 v] l IH]; simpl; auto. destruct (streqb k2 k); [discriminate|]. intros. f_equal; auto. Qed.

Lemma obj_erase m v kps l k : orep m v kps l -> Z.of_nat (length l) <= STR_CAP -> field l k <> None ->
  exists m' v' kps', o_erase (mko m v) k = Ret (mko m' v') tt /\ orep m' v' kps' (without l k) /\
    frame m m' (addrs kps) (addrs kps').
Proof.
  intros A Hl Hk. pose proof A as (R & N & F). pose proof (lookup_field _ _ _ k F) as Lf.
  unfold o_erase. cbn [flds omem]. rewrite (sm_get _ _ _ R).
  destruct (lookup streqb k kps) as [p|] eqn:El; [|congruence].
  destruct Lf as (y & Ey & Lp & Ip).
  pose proof (sm_erase v kps k R) as He. unfold present in He. rewrite El in He.
  destruct He as (v' & Ev & R'). { rewrite (orep_len _ _ _ _ A). auto. }
  rewrite Ev. cbn [olift bind]. rewrite (free_ok _ _ _ _ Lp).
  destruct (del_nodes _ _ _ _ _ F N (sm_keys _ _ R) El) as (D1 & D2 & D3).
  eexists _, _, _. split; [reflexivity|]. split; [split; [exact R'|]; split; auto|].
  split; [rewrite upd_length; lia|]. split.
  - intros q Hq Hn. rewrite load_upd_ne; auto. intros ->. auto.
  - intros q Hq. left. apply D3; auto.
Qed.

Lemma free_all_ok v : forall kps m l, Forall2 (onode m) kps l -> NoDup (addrs kps) ->
  exists m', o_free_all (addrs kps) (mko m v) = Ret (mko m' v) tt /\ frame m m' (addrs kps) [].
Proof.
  induction kps as [|[k p] kps IH]; intros m l F N; inversion F as [|? ? ? l2 [E L] F2]; subst; cbn [addrs List.map snd o_free_all] in *.
  - exists m. split; auto. split; auto.
  - inversion N as [|? ? N1 N2]; subst. rewrite (free_ok _ _ _ _ L). cbn [bind].
    destruct (IH (upd m p None) l2) as (m' & E1 & L1 & S1 & _); auto.
    + apply (Forall2_weak _ _ _ _ F2). intros [k2 q] z Hin [E' L']. split; auto. cbn [snd] in *.
      rewrite load_upd_ne; auto. intros ->. apply N1. change q with (snd (k2, q)). now apply in_map.
    + exists m'. split; [exact E1|]. rewrite upd_length in L1. split; auto. split; [|simpl; tauto].
      intros q Hq Hn. rewrite S1; [|rewrite upd_length; auto|intros H; apply Hn; simpl; auto].
      rewrite load_upd_ne; auto. intros ->. apply Hn. simpl. auto.
Qed.
Lemma obj_clear m v kps l : orep m v kps l ->
  exists m' v', o_clear (mko m v) = Ret (mko m' v') tt /\ orep m' v' [] [] /\ frame m m' (addrs kps) [].
Proof.
  intros (R & N & F). unfold o_clear. cbn [flds omem]. rewrite (sm_iterate _ _ R). cbn [olift bind].
  destruct (free_all_ok v kps m l F N) as (m' & E & Fr). unfold addrs in E. rewrite E. cbn [bind omem flds].
  eexists _, _. split; [reflexivity|]. split; auto. split; [apply sm_cleared|]. split; constructor.
Qed.

(** *** Appending *)
Lemma field_with l k x j : field (with_field l k x) j = if same k j then Some x else field l j.
Proof.
  unfold with_field. destruct (field l k) as [y|] eqn:E.
  - revert E. induction l as [|[k2 z] l IH]; [discriminate|]. rewrite field_cons. cbn [fst snd List.map].
    destruct (same_spec k2 k) as [->|H].
    + intros _. rewrite !field_cons. cbn [fst snd]. destruct (same_spec k j) as [->|Hj]; auto.
      clear -Hj. induction l as [|[k2 z] l IH]; auto. cbn [List.map fst]. destruct (same_spec k2 k) as [->|];
        rewrite !field_cons; cbn [fst snd]; rewrite IH; auto. destruct (same_spec k j); [congruence|auto].
    + intros E. rewrite !field_cons. cbn [fst snd]. rewrite IH by auto. destruct (same_spec k2 j) as [->|]; auto.
      destruct (same_spec k j); congruence.
  - revert E. induction l as [|[k2 z] l IH]; cbn [app].
    + intros _. rewrite field_cons. reflexivity.
    + rewrite !field_cons. cbn [fst snd]. destruct (same_spec k2 k) as [->|H]; [discriminate|]. intros E. rewrite IH by auto.
      destruct (same_spec k2 j) as [->|]; auto. destruct (same_spec k j); congruence.
Qed.
Lemma keys_with l k x : List.map fst (with_field l k x) =
  match field l k with Some _ => List.map fst l | None => List.map fst l ++ [k] end.
Proof.
  unfold with_field. destruct (field l k).
  - rewrite map_map. apply map_ext. intros [k2 z]. cbn [fst]. destruct (same_spec k2 k); auto.
  - now rewrite map_app.
Qed.
Lemma with_same l k x : field l k = Some x -> NoDup (List.map fst l) -> with_field l k x = l.
Proof.
  intros E N. unfold with_field. rewrite E. rewrite <- (map_id l) at 2. apply map_ext_in. intros [k2 z] H. cbn [fst].
  destruct (same_spec k2 k) as [->|]; auto. f_equal.
  revert E H N. clear. induction l as [|[k3 y] l IH]; [discriminate|]. rewrite field_cons. cbn [fst snd List.map In].
  intros E H N. inversion N as [|? ? N1 N2]; subst. destruct (same_spec k3 k) as [->|Hk].
  - destruct H as [H|H]; [congruence|]. exfalso. apply N1. change k with (fst (k, z)). now apply in_map.
  - destruct H as [H|H]; [congruence|auto].
Qed.
Lemma over_nil : forall l, NoDup (List.map fst l) -> forall a, (forall k, In k (List.map fst l) -> field a k = None) ->
  over a l = a ++ l.
Proof.
  induction l as [|[k x] l IH]; intros N a H; unfold over; cbn [fold_left fst snd]; [now rewrite app_nil_r|].
  cbn [List.map fst] in *. inversion N as [|? ? N1 N2]; subst. fold (over (with_field a k x) l). rewrite IH; auto.
  - unfold with_field. rewrite H by (simpl; auto). now rewrite <- app_assoc.
  - intros j Hj. rewrite field_with. destruct (same_spec k j) as [->|]; [tauto|]. apply H. simpl. auto.
Qed.
Lemma over_self : forall l a, NoDup (List.map fst a) -> (forall k x, In (k, x) l -> field a k = Some x) -> over a l = a.
Proof.
  induction l as [|[k x] l IH]; intros a N H; auto. unfold over. cbn [fold_left fst snd].
  rewrite with_same; auto; [|apply H; simpl; auto]. apply IH; auto. intros. apply H. simpl. auto.
Qed.
Lemma over_len : forall l a, (length a <= length (over a l))%nat.
Proof.
  induction l as [|[k x] l IH]; intros a; auto. unfold over. cbn [fold_left fst snd].
  specialize (IH (with_field a k x)). unfold over in IH. assert (length a <= length (with_field a k x))%nat; [|lia].
  unfold with_field. destruct (field a k); [now rewrite map_length|rewrite app_length; lia].
Qed.

Definition plain_obj (l : obj) : Prop := Forall (fun e => plain (snd e)) l.

(** Fields of another object. *)
Lemma put_all_ok var : forall kb lb m v kps l,
  Forall2 (onode m) kb lb -> plain_obj lb -> (forall p, In p (addrs kb) -> ~ In p (addrs kps)) ->
  orep m v kps l -> Z.of_nat (length (over l lb)) <= STR_CAP ->
  exists m' v' kps', o_put_all var kb (mko m v) = Ret (mko m' v') tt /\
    orep m' v' kps' (over l lb) /\ frame m m' (addrs kps) (addrs kps').
Proof.
  induction kb as [|[k p] kb IH]; intros lb m v kps l F Pl D A Hl; inversion F as [|? [k2 x] ? l2 [E L] F2]; subst; cbn [fst snd] in *.
  - exists m, v, kps. split; auto. split; auto. apply frame_refl.
  - subst k2. inversion Pl as [|? ? P1 P2]; subst. cbn [snd] in P1. cbn [o_put_all]. unfold o_load. cbn [omem]. rewrite L. cbn [bind].
    unfold over in Hl. cbn [fold_left fst snd] in Hl. fold (over (with_field l k x) l2) in Hl.
    destruct (obj_set m v kps l var k x A) as (m1 & v1 & k1 & E1 & A1 & F1).
    { rewrite stored_plain by auto. pose proof (over_len l2 (with_field l k x)). lia. }
    rewrite stored_plain in A1 by auto. rewrite E1. cbn [bind].
    assert (Hlt : forall q, In q (addrs ((k, p) :: kb)) -> (q < length m)%nat) by (intros q Hq; exact (nodes_lt _ _ _ _ F Hq)).
    destruct (IH l2 m1 v1 k1 (with_field l k x)) as (m2 & v2 & k2 & E2 & A2 & F3); auto.
    + eapply onode_frame; eauto. intros q Hq. apply D. simpl. auto.
    + intros q Hq H. destruct F1 as (_ & _ & F1). apply F1 in H. destruct H as [H|H].
      * apply (D q); simpl; auto.
      * assert (q < length m)%nat by (apply Hlt; simpl; auto). lia.
    + exists m2, v2, k2. split; [exact E2|]. split; [exact A2|]. eapply frame_trans; eauto.
Qed.
Lemma obj_append var vb kb m v kps l lb : orep m vb kb lb -> plain_obj lb ->
  (forall p, In p (addrs kb) -> ~ In p (addrs kps)) -> orep m v kps l -> Z.of_nat (length (over l lb)) <= STR_CAP ->
  exists m' v' kps', o_append var (mko m v) vb = Ret (mko m' v') tt /\
    orep m' v' kps' (over l lb) /\ frame m m' (addrs kps) (addrs kps').
Proof.
  intros (R & N & F) Pl D A Hl. unfold o_append. rewrite (sm_iterate _ _ R). eapply put_all_ok; eauto.
Qed.

(** An object appended to itself. *)
Lemma put_self_ok var v kps l : forall kb lb m,
  (forall k p, In (k, p) kb -> lookup streqb k kps = Some p) -> (forall k x, In (k, x) lb -> field l k = Some x) ->
  Forall2 (onode m) kb lb -> plain_obj lb ->
  orep m v kps l -> Z.of_nat (length l) <= STR_CAP ->
  exists m', o_put_all var kb (mko m v) = Ret (mko m' v) tt /\ orep m' v kps l /\ frame m m' (addrs kps) (addrs kps).
Proof.
  induction kb as [|[k p] kb IH]; intros lb m HK HL F Pl A Hl; inversion F as [|? [k2 x] ? l2 [E L] F2]; subst; cbn [fst snd] in *.
  - exists m. split; auto. split; auto. apply frame_refl.
  - subst k2. inversion Pl as [|? ? P1 P2]; subst. cbn [snd] in P1. cbn [o_put_all]. unfold o_load. cbn [omem]. rewrite L. cbn [bind].
    unfold o_set, o_slot. cbn [flds omem]. pose proof A as (R & N & F0). rewrite (sm_get _ _ _ R).
    rewrite (HK k p) by (simpl; auto). cbn [bind]. unfold o_store. cbn [omem flds]. rewrite L. cbn [bind].
    rewrite stored_plain by auto.
    assert (Same : forall q, load (upd m p (Some x)) q = load m q).
    { intros q. destruct (Nat.eq_dec p q) as [<-|Hn]; [|now apply load_upd_ne]. rewrite load_upd_eq; auto. now apply load_lt in L. }
    assert (A1 : orep (upd m p (Some x)) v kps l).
    { split; auto. split; auto. apply (Forall2_weak _ _ _ _ F0). intros e y He [E1 L1]. split; auto. now rewrite Same. }
    destruct (IH l2 (upd m p (Some x))) as (m2 & E2 & A2 & F3); auto.
    + intros. apply HK. simpl. auto.
    + intros. apply HL. simpl. auto.
    + apply (Forall2_weak _ _ _ _ F2). intros e y He [E1 L1]. split; auto. now rewrite Same.
    + exists m2. split; [exact E2|]. split; auto. eapply frame_trans; [|exact F3].
      split; [rewrite upd_length; lia|]. split; auto.
Qed.
Lemma lookup_all {V} : forall (l : list (list Z * V)), NoDup (List.map fst l) -> forall k p, In (k, p) l -> lookup streqb k l = Some p.
Proof.
  induction l as [|[k2 q] l IH]; intros N k p; [intros []|]. cbn [List.map fst] in N. inversion N as [|? ? N1 N2]; subst.
  cbn [lookup]. rewrite same_streqb. destruct (same_spec k2 k) as [->|H].
  - intros [E|E]; [congruence|]. exfalso. apply N1. change k with (fst (k, p)). now apply in_map.
  - intros [E|E]; [congruence|auto].
Qed.
Lemma field_all l : NoDup (List.map fst l) -> forall k x, In (k, x) l -> field l k = Some x.
Proof.
  induction l as [|[k2 q] l IH]; intros N k p; [intros []|]. cbn [List.map fst] in N. inversion N as [|? ? N1 N2]; subst.
  rewrite field_cons. cbn [fst snd]. destruct (same_spec k2 k) as [->|H].
  - intros [E|E]; [congruence|]. exfalso. apply N1. change k with (fst (k, p)). now apply in_map.
  - intros [E|E]; [congruence|auto].
Qed.
Lemma obj_append_self var m v kps l : orep m v kps l -> plain_obj l -> Z.of_nat (length l) <= STR_CAP ->
  exists m', o_append var (mko m v) v = Ret (mko m' v) tt /\ orep m' v kps (over l l) /\ frame m m' (addrs kps) (addrs kps).
Proof.
  intros A Pl Hl. pose proof A as (R & N & F). pose proof (orep_nodup _ _ _ _ A) as K.
  unfold o_append. rewrite (sm_iterate _ _ R).
  rewrite (over_self l l) by (auto; now apply field_all).
  eapply put_self_ok; eauto.
  - apply lookup_all. eapply sm_keys; eauto.
  - now apply field_all.
Qed.

(** *** All objects *)
Definition owrep (w : oworld) (kss : list (list (list Z * nat))) (ls : list obj) : Prop :=
  length (wobjs w) = length ls /\ length kss = length ls /\
  (forall a v ks l, nth_error (wobjs w) a = Some v -> nth_error kss a = Some ks -> nth_error ls a = Some l ->
     orep (owmem w) v ks l) /\
  (forall a b ks js p, nth_error kss a = Some ks -> nth_error kss b = Some js -> In p (addrs ks) -> In p (addrs js) -> a = b).

Lemma owrep_change w kss ls a v ks l m' v' ks' l' : owrep w kss ls ->
  nth_error (wobjs w) a = Some v -> nth_error kss a = Some ks -> nth_error ls a = Some l ->
  orep m' v' ks' l' -> frame (owmem w) m' (addrs ks) (addrs ks') ->
  owrep (mkow m' (upd (wobjs w) a v')) (upd kss a ks') (upd ls a l').
Proof.
  intros (L1 & L2 & Hr & Hd) Ev Ep El A Fr.
  assert (Ha : (a < length ls)%nat) by (apply nth_error_Some; congruence).
  split; [cbn [wobjs]; rewrite !upd_length; auto|]. split; [rewrite !upd_length; auto|]. split.
  - intros b vb pb lb. cbn [wobjs owmem]. rewrite !nth_upd by lia.
    destruct (Nat.eqb_spec a b) as [->|N]; [congruence|].
    intros E1 E2 E3. eapply orep_frame; [eapply Hr; eauto|eauto|].
    intros p H1 H2. apply N. eapply Hd; eauto.
  - intros b c pb pc p. rewrite !nth_upd by lia. destruct Fr as (Lm & _ & Fr).
    assert (X : forall q b' pb', nth_error kss b' = Some pb' -> In q (addrs pb') -> In q (addrs ks') -> a = b').
    { intros q b' pb' E1 H1 H2. apply Fr in H2. destruct H2 as [H2|H2].
      - eapply Hd; eauto.
      - exfalso. assert (b' < length kss)%nat by (apply nth_error_Some; congruence).
        destruct (nth_error (wobjs w) b') as [vb|] eqn:E2; [|apply nth_error_None in E2; lia].
        destruct (nth_error ls b') as [lb|] eqn:E3; [|apply nth_error_None in E3; lia].
        destruct (Hr _ _ _ _ E2 E1 E3) as (_ & _ & F). pose proof (nodes_lt _ _ _ _ F H1). lia. }
    destruct (Nat.eqb_spec a b) as [Eb|Nb], (Nat.eqb_spec a c) as [Ec|Nc].
    + congruence.
    + intros E1 E2 H1 H2. injection E1 as <-. rewrite <- Eb. eapply X; eauto.
    + intros E1 E2 H1 H2. injection E2 as <-. rewrite <- Ec. symmetry. eapply X; eauto.
    + eauto.
Qed.
Lemma orep_empty m : orep m m_empty [] [].
Proof. split; [apply sm_cleared|]. split; constructor. Qed.
Lemma owrep_new w kss ls : owrep w kss ls -> owrep (mkow (owmem w) (wobjs w ++ [m_empty])) (kss ++ [[]]) (ls ++ [[]]).
Proof.
  intros (L1 & L2 & Hr & Hd). split; [cbn [wobjs]; rewrite !app_length; cbn [length]; lia|].
  split; [rewrite !app_length; cbn [length]; lia|]. split.
  - intros a v ps l. cbn [wobjs owmem]. rewrite !nth_error_app, L1, L2.
    destruct (Nat.ltb_spec a (length ls)); [apply Hr|].
    destruct (a - length ls)%nat as [|k]; simpl; [|destruct k; discriminate].
    intros E1 E2 E3. inversion E1; inversion E2; inversion E3; subst. apply orep_empty.
  - intros a b ps qs p. rewrite !nth_error_app, L2.
    destruct (Nat.ltb_spec a (length ls)), (Nat.ltb_spec b (length ls)); eauto.
    + intros _ E2 _ H2. destruct (b - length ls)%nat as [|k]; simpl in E2; [inversion E2; subst; destruct H2|destruct k; discriminate].
    + intros E2 _ H2 _. destruct (a - length ls)%nat as [|k]; simpl in E2; [inversion E2; subst; destruct H2|destruct k; discriminate].
    + intros E2 _ H2 _. destruct (a - length ls)%nat as [|k]; simpl in E2; [inversion E2; subst; destruct H2|destruct k; discriminate].
Qed.
Lemma owrep_at w kss ls a l : owrep w kss ls -> nth_error ls a = Some l ->
  exists v ks, nth_error (wobjs w) a = Some v /\ nth_error kss a = Some ks /\ orep (owmem w) v ks l.
Proof.
  intros (L1 & L2 & Hr & _) El. assert (a < length ls)%nat by (apply nth_error_Some; congruence).
  destruct (nth_error (wobjs w) a) as [v|] eqn:E2; [|apply nth_error_None in E2; lia].
  destruct (nth_error kss a) as [ps|] eqn:E3; [|apply nth_error_None in E3; lia].
  eauto 6.
Qed.
Lemma owrep_shows w kss ls a l : owrep w kss ls -> nth_error ls a = Some l -> oshows w a l.
Proof.
  intros W El. destruct (owrep_at _ _ _ _ _ W El) as (v & ks & Ev & _ & A).
  exists v. split; auto. split; [eapply o_length_ok; eauto|]. split; [eapply o_keys_ok; eauto|].
  intros k. split; [eapply o_exists_ok; eauto|eapply o_get_ok; eauto].
Qed.
Lemma oon_ok {A} w kss ls a l (f : ost -> outcome ost A) x l' : owrep w kss ls -> nth_error ls a = Some l ->
  (forall v ks, nth_error (wobjs w) a = Some v -> nth_error kss a = Some ks -> orep (owmem w) v ks l ->
     exists m' v' ks', f (mko (owmem w) v) = Ret (mko m' v') x /\ orep m' v' ks' l' /\ frame (owmem w) m' (addrs ks) (addrs ks')) ->
  exists w' kss', oon w a f = Ret w' x /\ owrep w' kss' (upd ls a l').
Proof.
  intros W El H. destruct (owrep_at _ _ _ _ _ W El) as (v & ps & Ev & Ep & Ar).
  destruct (H v ps Ev Ep Ar) as (m' & v' & ps' & E & A' & Fr).
  eexists _, (upd kss a ps'). unfold oon. rewrite Ev, E. split; [reflexivity|].
  cbn [omem flds]. eapply owrep_change; eauto.
Qed.

Definition oallplain (ls : list obj) : Prop := forall a l, nth_error ls a = Some l -> plain_obj l.
Definition oshort (ls : list obj) : Prop := forall a l, nth_error ls a = Some l -> Z.of_nat (length l) <= STR_CAP.
Lemma oallplain_upd ls a l' : oallplain ls -> plain_obj l' -> oallplain (upd ls a l').
Proof.
  intros H P b l E. destruct (Nat.lt_ge_cases a (length ls)) as [L|L].
  - rewrite nth_upd in E by auto. destruct (Nat.eqb_spec a b); [congruence|eauto].
  - assert (upd ls a l' = ls) as X.
    { clear -L. revert a L; induction ls; intros [|a'] L; simpl in *; auto; try lia. f_equal. apply IHls. lia. }
    rewrite X in E. eauto.
Qed.
Lemma oallplain_app ls l : oallplain ls -> plain_obj l -> oallplain (ls ++ [l]).
Proof.
  intros H P b l0 E. rewrite nth_error_app in E. destruct (Nat.ltb_spec b (length ls)); eauto.
  destruct (b - length ls)%nat as [|k]; simpl in E; [inversion E; subst; auto|destruct k; discriminate].
Qed.
Lemma plain_with l k x : plain_obj l -> plain x -> plain_obj (with_field l k x).
Proof.
  unfold plain_obj, with_field. intros H P. destruct (field l k).
  - apply Forall_forall. intros e He. apply in_map_iff in He. destruct He as (e0 & <- & He).
    destruct (same (fst e0) k); auto. rewrite Forall_forall in H. auto.
  - apply Forall_app. auto.
Qed.
Lemma plain_over l : forall a, plain_obj a -> plain_obj l -> plain_obj (over a l).
Proof.
  induction l as [|[k x] l IH]; intros a Ha Hl; auto. inversion Hl; subst. unfold over. cbn [fold_left fst snd].
  apply (IH (with_field a k x)); auto. apply plain_with; auto.
Qed.

Ltac omod_inv E :=
  unfold omodify, oask in E;
  match type of E with context [nth_error ?ls ?a] =>
    let l := fresh "l" in let El := fresh "El" in destruct (nth_error ls a) as [l|] eqn:El; [|discriminate]
  end.

Lemma ostep_ok var o w kss ls ls' x : owrep w kss ls -> oallplain ls -> oshort ls -> Forall plain (oargs o) ->
  objs_step o ls = Some (ls', x) -> oshort ls' ->
  exists w' kss', ostep var o w = Ret w' x /\ owrep w' kss' ls' /\ oallplain ls'.
Proof.
  intros W Pl Sh0 Pa E Sh. destruct o as [|a k y|a k|a k|a k|a|a b|a b|a]; cbn [objs_step ostep oargs] in *.
  - inversion E; subst. eexists _, _. split; [reflexivity|]. split; [apply (owrep_new _ _ _ W)|]. apply oallplain_app; auto. constructor.
  - omod_inv E. inversion E; subst; clear E.
    assert (La : (a < length ls)%nat) by (apply nth_error_Some; congruence).
    rewrite splice_upd in * by auto. inversion Pa as [|? ? Py _]; subst.
    assert (Sl : Z.of_nat (length (with_field l k y)) <= STR_CAP).
    { apply (Sh a). rewrite nth_upd by auto. now rewrite Nat.eqb_refl. }
    destruct (oon_ok w kss ls a l (fun s => o_set var s k y) tt (with_field l k y) W El) as (w' & kss' & E' & W').
    { intros v ks _ _ A. destruct (obj_set (owmem w) v ks l var k y A) as (m' & v' & ks' & E1 & A1 & F1).
      - now rewrite stored_plain.
      - rewrite stored_plain in A1 by auto. eauto 8. }
    unfold oquiet. rewrite E'. cbn [bind]. eexists _, _. split; [reflexivity|]. split; eauto.
    apply oallplain_upd; auto. apply plain_with; eauto.
  - omod_inv E. inversion E; subst; clear E.
    destruct (oon_ok w kss ls' a l (fun s => o_get s k) (match field l k with Some x => x | None => Stk 0 P_UNDEFINED end) l W El) as (w' & kss' & E' & W').
    { intros v ks _ _ A. exists (owmem w), v, ks. split; [eapply o_get_ok; eauto|]. split; auto. apply frame_refl. }
    rewrite E'. cbn [bind]. eexists _, _. split; [reflexivity|]. rewrite upd_same in W' by auto. eauto.
  - omod_inv E. inversion E; subst; clear E.
    destruct (oon_ok w kss ls' a l (fun s => o_exists s k) (match field l k with Some x => true | None => false end) l W El) as (w' & kss' & E' & W').
    { intros v ks _ _ A. exists (owmem w), v, ks. split; [eapply o_exists_ok; eauto|]. split; auto. apply frame_refl. }
    rewrite E'. cbn [bind]. eexists _, _. split; [reflexivity|]. rewrite upd_same in W' by auto. eauto.
  - omod_inv E. destruct (field l k) as [y|] eqn:Ef; [|discriminate]. inversion E; subst; clear E.
    assert (La : (a < length ls)%nat) by (apply nth_error_Some; congruence). rewrite splice_upd in * by auto.
    destruct (oon_ok w kss ls a l (fun s => o_erase s k) tt (without l k) W El) as (w' & kss' & E' & W').
    { intros v ks _ _ A. apply (obj_erase _ _ _ _ _ A); eauto. congruence. }
    unfold oquiet. rewrite E'. cbn [bind]. eexists _, _. split; [reflexivity|]. split; eauto.
    apply oallplain_upd; auto. apply Forall_forall. intros e He. apply filter_In in He.
    specialize (Pl _ _ El). unfold plain_obj in Pl. rewrite Forall_forall in Pl. now apply Pl.
  - omod_inv E. inversion E; subst; clear E.
    assert (La : (a < length ls)%nat) by (apply nth_error_Some; congruence). rewrite splice_upd in * by auto.
    destruct (oon_ok w kss ls a l o_clear tt [] W El) as (w' & kss' & E' & W').
    { intros v ks _ _ A. destruct (obj_clear _ _ _ _ A) as (m' & v' & E1 & A1 & F1). eexists m', v', []. eauto. }
    unfold oquiet. rewrite E'. cbn [bind]. eexists _, _. split; [reflexivity|]. split; eauto. apply oallplain_upd; auto. constructor.
  - destruct (nth_error ls b) as [lb|] eqn:Eb; [|discriminate]. omod_inv E. inversion E; subst; clear E.
    assert (La : (a < length ls)%nat) by (apply nth_error_Some; congruence). rewrite splice_upd in * by auto.
    assert (Sl : Z.of_nat (length (over l lb)) <= STR_CAP).
    { apply (Sh a). rewrite nth_upd by auto. now rewrite Nat.eqb_refl. }
    destruct (owrep_at _ _ _ _ _ W Eb) as (vb & kb & Evb & Ekb & Ab). rewrite Evb.
    destruct (oon_ok w kss ls a l (fun s => o_append var s vb) tt (over l lb) W El) as (w' & kss' & E' & W').
    { intros v ks Ev Ek A. destruct (Nat.eq_dec a b) as [->|Nab].
      - replace vb with v by congruence. replace lb with l by congruence.
        destruct (obj_append_self var _ _ _ _ A) as (m' & E1 & A1 & F1); eauto. eexists m', v, ks. eauto.
      - eapply obj_append; eauto. intros p H1 H2. apply Nab. destruct W as (_ & _ & _ & Hd). eapply Hd; eauto. }
    unfold oquiet. rewrite E'. cbn [bind]. eexists _, _. split; [reflexivity|]. split; eauto.
    apply oallplain_upd; auto. apply plain_over; eauto.
  - destruct (nth_error ls a) as [la|] eqn:Ea; [|discriminate].
    destruct (nth_error ls b) as [lb|] eqn:Eb; [|discriminate]. inversion E; subst; clear E.
    destruct (owrep_at _ _ _ _ _ W Ea) as (va & ka & Eva & Eka & Aa). rewrite Eva.
    destruct (owrep_at _ _ _ _ _ W Eb) as (vb & kb & Evb & Ekb & Ab). rewrite Evb.
    assert (Sl : Z.of_nat (length (over la lb)) <= STR_CAP).
    { apply (Sh (length ls)). rewrite nth_error_app2, Nat.sub_diag by lia. reflexivity. }
    pose proof (owrep_new _ _ _ W) as W0. pose proof (proj1 W) as Lw.
    destruct (oon_ok _ _ _ (length (wobjs w)) [] (fun s => bind (o_append var s va) (fun s _ => o_append var s vb)) tt (over la lb) W0)
      as (w' & kss' & E' & W').
    { rewrite Lw. rewrite nth_error_app2, Nat.sub_diag by lia. reflexivity. }
    { intros v ks Ev Ek A. cbn [owmem] in *.
      assert (ks = []) as -> by (apply orep_len in A; destruct ks; auto; discriminate).
      assert (Na : over [] la = la) by (apply over_nil; [eapply orep_nodup; eauto|reflexivity]).
      destruct (obj_append var va ka (owmem w) v [] [] la) as (m1 & v1 & k1 & E1 & A1 & F1); eauto.
      { rewrite Na. eauto. }
      rewrite E1, Na in *. cbn [bind].
      destruct Ab as (Rb & Nb & Fb).
      destruct (obj_append var vb kb m1 v1 k1 la lb) as (m2 & v2 & k2 & E2 & A2 & F2); eauto.
      - split; auto. split; auto. eapply onode_frame; eauto.
      - intros p H1 H2. destruct F1 as (_ & _ & F1). apply F1 in H2. destruct H2 as [[]|H2].
        pose proof (nodes_lt _ _ _ _ Fb H1). lia.
      - exists m2, v2, k2. split; auto. split; auto. eapply frame_trans; eauto. }
    unfold oquiet. rewrite E'. cbn [bind]. eexists _, _. split; [reflexivity|].
    rewrite Lw, upd_last in W'. split; eauto. apply oallplain_app; auto. apply plain_over; eauto.
  - omod_inv E. inversion E; subst; clear E.
    destruct (oon_ok w kss ls' a l o_keys (List.map fst l) l W El) as (w' & kss' & E' & W').
    { intros v ks _ _ A. exists (owmem w), v, ks. split; [eapply o_keys_ok; eauto|]. split; auto. apply frame_refl. }
    rewrite E'. cbn [bind]. eexists _, _. split; [reflexivity|]. rewrite upd_same in W' by auto. eauto.
Qed.

Lemma orun_ok var : forall os w kss ls ls' xs, owrep w kss ls -> oallplain ls -> oshort ls ->
  Forall (fun o => Forall plain (oargs o)) os -> objs_run STR_CAP os ls = Some (ls', xs) ->
  exists w' kss', orun var os w = Ret w' xs /\ owrep w' kss' ls' /\ oallplain ls' /\ oshort ls'.
Proof.
  induction os as [|o os IH]; intros w kss ls ls' xs W Pl Sh Pa E; cbn [objs_run orun] in *.
  - inversion E; subst. eauto 6.
  - destruct (objs_step o ls) as [[l1 x]|] eqn:Es; [|discriminate].
    destruct (forallb (fun l => Z.of_nat (length l) <=? STR_CAP) l1) eqn:Eb; [|discriminate].
    destruct (objs_run STR_CAP os l1) as [[l2 ys]|] eqn:Er; [|discriminate]. inversion E; subst; clear E.
    inversion Pa as [|? ? P1 P2]; subst.
    assert (Sh1 : oshort l1).
    { intros a l El. pose proof (forallb_nth _ _ _ _ Eb El) as X. cbn beta in X. now apply Z.leb_le in X. }
    destruct (ostep_ok var o w kss ls l1 x W Pl Sh P1 Es Sh1) as (w1 & p1 & E1 & W1 & Pl1).
    destruct (IH w1 p1 l1 ls' ys W1 Pl1 Sh1 P2 Er) as (w2 & p2 & E2 & W2 & Pl2).
    exists w2, p2. rewrite E1. cbn [bind]. rewrite E2. auto.
Qed.
Lemma owrep_empty : owrep ow_empty [] [].
Proof. split; auto. split; auto. split; intros []; discriminate. Qed.
