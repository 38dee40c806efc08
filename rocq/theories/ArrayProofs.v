From Coq Require Import List ZArith Lia Bool.
From Verif Require Import Base VectorModel VectorSpec VectorProofs ValueModel ValueSpec ArrayModel ArraySpec.
Import ListNotations.
Open Scope Z_scope.

(** *** Lists *)
Lemma Forall2_firstn {A B} (R : A -> B -> Prop) l1 l2 n : Forall2 R l1 l2 -> Forall2 R (firstn n l1) (firstn n l2).
Proof. intros H; revert n; induction H; intros [|n]; simpl; auto. Qed.
Lemma Forall2_skipn {A B} (R : A -> B -> Prop) l1 l2 n : Forall2 R l1 l2 -> Forall2 R (skipn n l1) (skipn n l2).
Proof. intros H; revert n; induction H; intros [|n]; simpl; auto. Qed.
Lemma Forall2_nth {A B} (R : A -> B -> Prop) l1 l2 : Forall2 R l1 l2 -> forall i x, nth_error l1 i = Some x ->
  exists y, nth_error l2 i = Some y /\ R x y.
Proof.
  induction 1 as [|a b l1 l2 H F IH]; intros [|i] x E; simpl in *; try discriminate.
  - inversion E; subst. eauto.
  - eauto.
Qed.
Lemma Forall2_nth_r {A B} (R : A -> B -> Prop) l1 l2 : Forall2 R l1 l2 -> forall i y, nth_error l2 i = Some y ->
  exists x, nth_error l1 i = Some x /\ R x y.
Proof.
  induction 1 as [|a b l1 l2 H F IH]; intros [|i] x E; simpl in *; try discriminate.
  - inversion E; subst. eauto.
  - eauto.
Qed.
Lemma Forall2_length {A B} (R : A -> B -> Prop) l1 l2 : Forall2 R l1 l2 -> length l1 = length l2.
Proof. induction 1; simpl; auto. Qed.
Lemma Forall2_weak {A B} (R R' : A -> B -> Prop) l1 l2 : Forall2 R l1 l2 ->
  (forall x y, In x l1 -> R x y -> R' x y) -> Forall2 R' l1 l2.
Proof. induction 1; intros W; constructor; auto; [apply W; simpl; auto | apply IHForall2; intros; apply W; simpl; auto]. Qed.
Lemma split_at {A} (l : list A) i x : nth_error l i = Some x -> l = firstn i l ++ x :: skipn (i + 1) l.
Proof.
  revert i; induction l as [|y l IH]; intros [|i] E; simpl in *; try discriminate.
  - now inversion E.
  - f_equal. auto.
Qed.
Lemma firstn_In {A} (l : list A) n x : In x (firstn n l) -> In x l.
Proof. revert n; induction l; intros [|n]; simpl; try tauto. intros [->|H]; eauto. Qed.
Lemma skipn_In {A} (l : list A) n x : In x (skipn n l) -> In x l.
Proof. revert n; induction l; intros [|n]; simpl; try tauto. intros H; eauto. Qed.

(** *** Memory *)
Lemma load_lt m p x : load m p = Some x -> (p < length m)%nat.
Proof. unfold load. intros H. apply nth_error_Some. destruct (nth_error m p); congruence. Qed.
Lemma load_app m p c : (p < length m)%nat -> load (m ++ [c]) p = load m p.
Proof. intros H. unfold load. now rewrite nth_error_app1. Qed.
Lemma load_new m x : load (m ++ [Some x]) (length m) = Some x.
Proof. unfold load. rewrite nth_error_app2, Nat.sub_diag by lia. reflexivity. Qed.
Lemma load_upd_ne m p q c : p <> q -> load (upd m p c) q = load m q.
Proof. intros H. unfold load. now rewrite nth_error_upd_ne. Qed.
Lemma load_upd_eq m p c : (p < length m)%nat -> load (upd m p c) p = c.
Proof. intros H. unfold load. rewrite nth_error_upd_eq by auto. now destruct c. Qed.

(** *** One array *)
Definition arrep (m : blocks) (v : vec nat) (ps : list nat) (l : list stk) : Prop :=
  rep nat v ps /\ NoDup ps /\ Forall2 (fun p x => load m p = Some x) ps l.
Definition frame (m m' : blocks) (ps ps' : list nat) : Prop :=
  (length m <= length m')%nat /\
  (forall p, (p < length m)%nat -> ~ In p ps -> load m' p = load m p) /\
  (forall p, In p ps' -> In p ps \/ (length m <= p < length m')%nat).

Lemma arrep_len m v ps l : arrep m v ps l -> length ps = length l.
Proof. intros (_ & _ & F). now apply Forall2_length in F. Qed.
Lemma arrep_lt m v ps l p : arrep m v ps l -> In p ps -> (p < length m)%nat.
Proof.
  intros (_ & _ & F) H. apply In_nth_error in H. destruct H as [i H].
  destruct (Forall2_nth _ _ _ F _ _ H) as (x & _ & L). now apply load_lt in L.
Qed.
Lemma arrep_count m v ps l : arrep m v ps l -> count v = Z.of_nat (length l).
Proof. intros H. rewrite <- (arrep_len _ _ _ _ H). destruct H as ((_ & C & _) & _). exact C. Qed.
Lemma arrep_size m v ps l : arrep m v ps l -> Z.of_nat (length l) <= size v.
Proof. intros H. rewrite <- (arrep_len _ _ _ _ H). destruct H as ((S & _ & L & _) & _). lia. Qed.

(** The pointer at an index of the array. *)
Lemma ptr_ok m v ps l i p : arrep m v ps l -> 0 <= i -> nth_error ps (Z.to_nat i) = Some p ->
  a_ptr (mka m v) i = Ret (mka m v) p.
Proof.
  intros (R & _) Hi E. unfold a_ptr. cbn [arr].
  destruct (rep_holds nat v ps R) as [_ H].
  destruct (H i) as (x & Ex & G). { assert (Z.to_nat i < length ps)%nat by (apply nth_error_Some; congruence). lia. }
  rewrite G. congruence.
Qed.
Lemma elem_at m v ps l i x : arrep m v ps l -> get_at l i = Some x ->
  exists p, 0 <= i < Z.of_nat (length l) /\ nth_error ps (Z.to_nat i) = Some p /\ load m p = Some x /\
    a_ptr (mka m v) i = Ret (mka m v) p.
Proof.
  unfold get_at. intros A E. destruct (Z.ltb_spec i 0); [discriminate|].
  pose proof A as (R & N & F).
  destruct (Forall2_nth_r _ _ _ F _ _ E) as (p & Ep & L).
  assert (Z.to_nat i < length l)%nat by (apply nth_error_Some; congruence).
  exists p. repeat split; auto; try lia. eapply ptr_ok; eauto.
Qed.

Lemma get_ok m v ps l i x : arrep m v ps l -> get_at l i = Some x -> a_get (mka m v) i = Ret (mka m v) x.
Proof.
  intros A E. destruct (elem_at _ _ _ _ _ _ A E) as (p & Hi & Ep & L & P).
  unfold a_get. cbn [arr]. rewrite (arrep_count _ _ _ _ A).
  destruct (Z.leb_spec (Z.of_nat (length l)) i); [lia|].
  rewrite P. cbn [bind]. unfold a_load. cbn [mem]. now rewrite L.
Qed.

Lemma arr_push m v ps l var x : arrep m v ps l -> Z.of_nat (length l) < 1999984 ->
  exists m' v', a_push var (mka m v) x = Ret (mka m' v') tt /\
    arrep m' v' (ps ++ [length m]) (l ++ [stored var x]) /\ frame m m' ps (ps ++ [length m]).
Proof.
  intros A Hl. pose proof A as (R & N & F).
  destruct (push_ok nat v ps (length m) R) as (v' & E & R'). { rewrite (arrep_len _ _ _ _ A). auto. }
  unfold a_push, a_newSlot. cbn [mem arr]. rewrite E. cbn [lift bind]. unfold a_store. cbn [mem arr].
  rewrite load_new. eexists _, _. split; [reflexivity|].
  assert (Hm : forall p, (p < length m)%nat ->
    load (upd (m ++ [Some k_undefined]) (length m) (Some (stored var x))) p = load m p).
  { intros p Hp. rewrite load_upd_ne by lia. now apply load_app. }
  split.
  - split; [exact R'|]. split.
    + assert (NoDup (length m :: ps)).
      { constructor; auto. intros H. apply (arrep_lt _ _ _ _ _ A) in H. lia. }
      apply (NoDup_Add (a := length m) (l := ps)); [|inversion H; subst; auto].
      replace (ps ++ [length m]) with (ps ++ length m :: []) by reflexivity.
      replace ps with (ps ++ []) at 1 by apply app_nil_r. apply Add_app.
    + apply Forall2_app.
      * apply (Forall2_weak _ _ _ _ F). intros p y Hp L. rewrite Hm; auto. now apply load_lt in L.
      * constructor; auto. apply load_upd_eq. rewrite app_length. simpl. lia.
  - split; [rewrite upd_length, app_length; lia|]. split.
    + intros p Hp _. auto.
    + intros p Hp. apply in_app_or in Hp. destruct Hp as [Hp|[<-|[]]]; auto. right.
      rewrite upd_length, app_length. simpl. lia.
Qed.

Lemma frame_refl m ps : frame m m ps ps.
Proof. repeat split; auto; lia. Qed.
Lemma frame_trans m0 m1 m2 p0 p1 p2 : frame m0 m1 p0 p1 -> frame m1 m2 p1 p2 -> frame m0 m2 p0 p2.
Proof.
  intros (L1 & S1 & P1) (L2 & S2 & P2). split; [lia|]. split.
  - intros p Hp Hn. rewrite S2; [apply S1; auto | lia |].
    intros H. apply P1 in H. destruct H; [auto|lia].
  - intros p Hp. apply P2 in Hp. destruct Hp as [Hp|Hp]; [apply P1 in Hp; destruct Hp; [auto|right; lia]|right; lia].
Qed.

(** Writing one element of the array. *)
Lemma arr_write m v ps l i p x y : arrep m v ps l -> nth_error ps i = Some p -> load m p = Some y ->
  arrep (upd m p (Some x)) v ps (upd l i x) /\ frame m (upd m p (Some x)) ps ps.
Proof.
  intros A E L. pose proof A as (R & N & F). pose proof (load_lt _ _ _ L) as Hp. split.
  - split; [exact R|]. split; [exact N|].
    clear R A. revert l i E F. induction N as [|q ps Hq N IH]; intros l i E F; inversion F as [|? b ? l2 ? F2]; subst.
    + destruct i; discriminate.
    + destruct i as [|i]; simpl in E |- *.
      * inversion E; subst q. constructor; [now apply load_upd_eq|].
        apply (Forall2_weak _ _ _ _ F2). intros r z Hr Hz. rewrite load_upd_ne; auto. intros ->; auto.
      * constructor; [|now apply IH]. rewrite load_upd_ne; auto. intros ->. apply Hq. now apply nth_error_In in E.
  - split; [rewrite upd_length; lia|]. split; [|auto].
    intros q Hq Hn. rewrite load_upd_ne; auto. intros ->. apply Hn. now apply nth_error_In in E.
Qed.

Lemma arr_set m v ps l var i x l' : arrep m v ps l -> set_at l i (stored var x) = Some l' ->
  exists m', a_set var (mka m v) i x = Ret (mka m' v) tt /\ arrep m' v ps l' /\ frame m m' ps ps.
Proof.
  intros A E. unfold set_at in E. destruct (get_at l i) as [y|] eqn:G; [|discriminate]. inversion E; subst l'; clear E.
  destruct (elem_at _ _ _ _ _ _ A G) as (p & Hi & Ep & L & P).
  unfold a_set. cbn [arr]. rewrite (arrep_count _ _ _ _ A).
  destruct (Z.leb_spec (Z.of_nat (length l)) i); [lia|].
  rewrite P. cbn [bind]. unfold a_store. cbn [mem arr]. rewrite L.
  eexists. split; [reflexivity|].
  replace (firstn (Z.to_nat i) l ++ stored var x :: skipn (Z.to_nat i + 1) l) with (upd l (Z.to_nat i) (stored var x)).
  - eapply arr_write; eauto.
  - rewrite upd_split by lia. now rewrite Nat.add_1_r.
Qed.

(** Dropping one pointer of the list. *)
Lemma NoDup_drop {A} (ps : list A) i p : NoDup ps -> nth_error ps i = Some p ->
  NoDup (firstn i ps ++ skipn (i + 1) ps) /\ ~ In p (firstn i ps ++ skipn (i + 1) ps).
Proof.
  intros N E. rewrite (split_at ps i p E) in N. apply NoDup_remove in N. exact N.
Qed.

Lemma arr_free m v ps l i p x : arrep m v ps l -> nth_error ps i = Some p -> load m p = Some x ->
  Forall2 (fun p x => load (upd m p None) p = None) [p] [x] /\
  Forall2 (fun q y => load (upd m p None) q = Some y) (firstn i ps ++ skipn (i + 1) ps) (firstn i l ++ skipn (i + 1) l) /\
  frame m (upd m p None) ps (firstn i ps ++ skipn (i + 1) ps).
Proof.
  intros (R & N & F) E L. pose proof (load_lt _ _ _ L) as Hp.
  destruct (NoDup_drop _ _ _ N E) as [N' Hn].
  split; [constructor; auto; now apply load_upd_eq|]. split.
  - apply (Forall2_weak (fun q y => load m q = Some y)).
    + apply Forall2_app; [now apply Forall2_firstn | now apply Forall2_skipn].
    + intros q y Hq Lq. rewrite load_upd_ne; auto. intros ->; auto.
  - split; [rewrite upd_length; lia|]. split.
    + intros q Hq Hnq. apply load_upd_ne. intros ->. apply Hnq. now apply nth_error_In in E.
    + intros q Hq. left. apply in_app_or in Hq. destruct Hq; [eapply firstn_In | eapply skipn_In]; eauto.
Qed.

Lemma erase_keeps v i v' (ps : list nat) : rep nat v ps -> 0 <= i < Z.of_nat (length ps) -> erase v i = Ret v' tt ->
  size v' = size v /\ forall j, Z.of_nat (length ps) - 1 <= Z.of_nat j -> nth_error (buf v') j = nth_error (buf v) j.
Proof.
  intros (Hs & Hc & Hle & Hn) Hi. unfold erase, out_of_size.
  destruct (Z.ltb_spec i 0); [lia|]. destruct (Z.leb_spec (size v) i); [lia|]. cbn [orb].
  destruct (for_up_shift (Z.to_nat (count v - 1 - i)) i (buf v)) as (r & E & L & Nr); try lia.
  rewrite E. intros Ev. inversion Ev; subst; clear Ev. cbn [size]. split; auto.
  intros j Hj.
  assert (HB : items v = Some (buf v)).
  { unfold buf in *. destruct (items v); auto. simpl in *. lia. }
  rewrite HB, buf_mk, Nr.
  destruct (Z.leb_spec i (Z.of_nat j)); cbn [andb]; auto.
  destruct (Z.ltb_spec (Z.of_nat j) (i + Z.of_nat (Z.to_nat (count v - 1 - i)))); auto. lia.
Qed.

Lemma arr_erase m v ps l i l' : arrep m v ps l -> erase_at l i = Some l' ->
  exists p v', nth_error ps (Z.to_nat i) = Some p /\
    a_eraseElementAt (mka m v) i = Ret (mka (upd m p None) v') tt /\ erase v i = Ret v' tt /\
    arrep (upd m p None) v' (firstn (Z.to_nat i) ps ++ skipn (Z.to_nat i + 1) ps) l' /\
    frame m (upd m p None) ps (firstn (Z.to_nat i) ps ++ skipn (Z.to_nat i + 1) ps).
Proof.
  intros A E. unfold erase_at in E. destruct (get_at l i) as [y|] eqn:G; [|discriminate]. inversion E; subst l'; clear E.
  destruct (elem_at _ _ _ _ _ _ A G) as (p & Hi & Ep & L & P).
  pose proof (arrep_len _ _ _ _ A) as Hlen.
  destruct (erase_ok nat v ps i) as (v' & Ev & R'); [apply A|lia|].
  exists p, v'. split; auto.
  destruct (arr_free _ _ _ _ _ _ _ A Ep L) as (_ & F & Fr).
  split.
  - unfold a_eraseElementAt. rewrite P. cbn [bind arr]. unfold a_free. cbn [mem]. rewrite L. cbn [bind mem arr].
    rewrite Ev. cbn [lift]. rewrite (arrep_count _ _ _ _ A).
    destruct (Z.leb_spec (Z.of_nat (length l)) i); [lia|]. reflexivity.
  - split; auto. split; auto. split; [exact R'|]. split; auto.
    destruct A as (_ & N & _). now destruct (NoDup_drop _ _ _ N Ep).
Qed.

Lemma NoDup_insert {A} (ps : list A) i p : NoDup ps -> ~ In p ps -> NoDup (firstn i ps ++ p :: skipn i ps).
Proof.
  intros N H. rewrite <- (firstn_skipn i ps) in N, H.
  eapply NoDup_Add; [apply Add_app|]. auto.
Qed.

Lemma to_int_small z : - 2 ^ 31 <= z < 2 ^ 31 -> to_int z = z.
Proof. intros H. unfold to_int. rewrite Z.mod_small; lia. Qed.

Lemma arr_insert m v ps l var i x l' : arrep m v ps l -> insert_at l i (stored var x) = Some l' ->
  Z.of_nat (length l) < 1999984 ->
  exists m' v', a_insertAt var (mka m v) i x = Ret (mka m' v') tt /\
    arrep m' v' (firstn (Z.to_nat i) ps ++ length m :: skipn (Z.to_nat i) ps) l' /\
    frame m m' ps (firstn (Z.to_nat i) ps ++ length m :: skipn (Z.to_nat i) ps).
Proof.
  intros A E Hl. unfold insert_at in E.
  destruct (Z.leb_spec 0 i); [|discriminate]. destruct (Z.leb_spec i (Z.of_nat (length l))); [|discriminate].
  cbn [andb] in E. inversion E; subst l'; clear E.
  pose proof (arrep_len _ _ _ _ A) as Hlen. pose proof A as (R & N & F).
  destruct (insert_ok nat v ps i (length m) R) as (v' & Ev & R'); [lia|lia|].
  unfold a_insertAt. cbn [mem arr]. rewrite to_int_small by lia. rewrite Ev. cbn [lift].
  eexists _, _. split; [reflexivity|].
  assert (Hn : ~ In (length m) ps). { intros H1. apply (arrep_lt _ _ _ _ _ A) in H1. lia. }
  split.
  - split; [exact R'|]. split; [now apply NoDup_insert|].
    assert (F' : Forall2 (fun p y => load (m ++ [Some (stored var x)]) p = Some y) ps l).
    { apply (Forall2_weak _ _ _ _ F). intros q y _ L. rewrite load_app; auto. now apply load_lt in L. }
    apply Forall2_app; [now apply Forall2_firstn|]. constructor; [apply load_new|now apply Forall2_skipn].
  - split; [rewrite app_length; lia|]. split.
    + intros p Hp _. now apply load_app.
    + intros p Hp. apply in_app_or in Hp. destruct Hp as [Hp|[<-|Hp]].
      * left. eapply firstn_In; eauto.
      * right. rewrite app_length. simpl. lia.
      * left. eapply skipn_In; eauto.
Qed.

Lemma rev_last {A} (l : list A) x r : rev l = x :: r -> nth_error l (length l - 1) = Some x /\ l <> [].
Proof.
  intros H. assert (E : l = rev r ++ [x]) by (rewrite <- (rev_involutive l), H; reflexivity).
  subst l. rewrite app_length. simpl. split.
  - rewrite nth_error_app2 by lia. now replace (length (rev r) + 1 - 1 - length (rev r))%nat with O by lia.
  - destruct (rev r); discriminate.
Qed.
Lemma removelast_erase (l : list stk) : l <> [] ->
  erase_at l (Z.of_nat (length l) - 1) = Some (removelast l).
Proof.
  intros H. assert (0 < length l)%nat by (destruct l; simpl; [congruence|lia]).
  unfold erase_at, get_at. destruct (Z.ltb_spec (Z.of_nat (length l) - 1) 0); [lia|].
  replace (Z.to_nat (Z.of_nat (length l) - 1)) with (length l - 1)%nat by lia.
  destruct (nth_error l (length l - 1)) eqn:E; [|apply nth_error_None in E; lia].
  f_equal. rewrite skipn_all2 by lia. rewrite app_nil_r, removelast_firstn_len. f_equal. lia.
Qed.

Lemma arr_pop m v ps l x r : arrep m v ps l -> rev l = x :: r ->
  exists m' v' ps', a_pop (mka m v) = Ret (mka m' v') x /\ arrep m' v' ps' (removelast l) /\ frame m m' ps ps'.
Proof.
  intros A Hr. destruct (rev_last _ _ _ Hr) as [Hx Hne].
  pose proof (removelast_erase l Hne) as He.
  assert (G : get_at l (Z.of_nat (length l) - 1) = Some x).
  { unfold get_at. destruct l; [congruence|]. cbn [length] in *.
    destruct (Z.ltb_spec (Z.of_nat (S (length l)) - 1) 0); [lia|]. rewrite <- Hx. f_equal. lia. }
  destruct (elem_at _ _ _ _ _ _ A G) as (q & _ & _ & L & P).
  destruct (arr_erase _ _ _ _ _ _ A He) as (p & v' & Ep & Ee & _ & A' & Fr).
  exists (upd m p None), v', (firstn (Z.to_nat (Z.of_nat (length l) - 1)) ps ++ skipn (Z.to_nat (Z.of_nat (length l) - 1) + 1) ps).
  split; [|split; auto].
  unfold a_pop. cbn [arr]. rewrite (arrep_count _ _ _ _ A). rewrite P. cbn [bind]. unfold a_load. cbn [mem]. rewrite L.
  cbn [bind]. rewrite Ee. reflexivity.
Qed.

(** Clearing. *)
Lemma free_from_ok v ps : rep nat v ps -> NoDup ps -> forall n i m,
  (i + n = length ps)%nat -> (forall p, In p (skipn i ps) -> exists x, load m p = Some x) ->
  exists m', a_free_from n (Z.of_nat i) (mka m v) = Ret (mka m' v) tt /\ frame m m' ps [].
Proof.
  intros R N. induction n as [|n IH]; intros i m Hi Hl.
  - exists m. split; [reflexivity|]. repeat split; auto. simpl. tauto.
  - cbn [a_free_from].
    destruct (nth_error ps i) as [p|] eqn:Ep; [|apply nth_error_None in Ep; lia].
    assert (P : a_ptr (mka m v) (Z.of_nat i) = Ret (mka m v) p).
    { unfold a_ptr. cbn [arr]. destruct (rep_holds nat v ps R) as [_ H].
      destruct (H (Z.of_nat i)) as (x & Ex & G); [lia|]. rewrite G. rewrite Nat2Z.id in Ex. congruence. }
    rewrite P. cbn [bind]. unfold a_free. cbn [mem].
    assert (Sk : skipn i ps = p :: skipn (S i) ps).
    { clear -Ep. revert i Ep; induction ps as [|q ps IH]; intros [|i] E; simpl in *; try discriminate; [now inversion E|auto]. }
    destruct (Hl p) as [x Lx]; [rewrite Sk; simpl; auto|]. rewrite Lx. cbn [bind].
    replace (Z.of_nat i + 1) with (Z.of_nat (S i)) by lia.
    destruct (IH (S i) (upd m p None)) as (m' & E & L1 & S1 & _); [lia| |].
    + intros q Hq. rewrite load_upd_ne.
      * apply Hl. rewrite Sk. simpl. auto.
      * intros ->. destruct (NoDup_drop _ _ _ N Ep) as [_ Hn]. apply Hn. apply in_or_app. right. now rewrite Nat.add_1_r.
    + exists m'. split; [exact E|]. rewrite upd_length in L1. split; [lia|]. split; [|simpl; tauto].
      intros q Hq Hnq. rewrite S1; [|rewrite upd_length; auto|auto]. rewrite load_upd_ne; auto.
      intros ->. apply Hnq. now apply nth_error_In in Ep.
Qed.
Lemma arr_clear m v ps l : arrep m v ps l ->
  exists m', a_clear (mka m v) = Ret (mka m' v_empty) tt /\ arrep m' v_empty [] [] /\ frame m m' ps [].
Proof.
  intros A. pose proof A as (R & N & F). pose proof R as (_ & C & _).
  destruct (free_from_ok v ps R N (length ps) 0 m) as (m' & E & Fr); [lia| |].
  - simpl. intros p Hp. apply In_nth_error in Hp. destruct Hp as [i Hp].
    destruct (Forall2_nth _ _ _ F _ _ Hp) as (x & _ & L). eauto.
  - exists m'. unfold a_clear. cbn [arr]. rewrite C, Nat2Z.id. change (Z.of_nat 0) with 0 in E. rewrite E. cbn [bind mem arr].
    split; [reflexivity|]. split; auto. split; [apply rep_empty|]. split; constructor.
Qed.

(** Appending another array. *)
Lemma stored_plain var x : plain x -> stored var x = x.
Proof.
  destruct x as [z p]. unfold plain. cbn [props In].
  intros [<-|[<-|[<-|[<-|[<-|[<-|[<-|[<-|[]]]]]]]]]; reflexivity.
Qed.
Lemma concat_from_ok var vb pb : forall n i m v ps l lb,
  rep nat vb pb -> Forall2 (fun p x => load m p = Some x) pb lb -> Forall plain lb ->
  (forall p, In p pb -> ~ In p ps) ->
  arrep m v ps l -> (i + n = length pb)%nat -> Z.of_nat (length l) + Z.of_nat n < 1999985 ->
  exists m' v' ps', a_concat_from var vb n (Z.of_nat i) (mka m v) = Ret (mka m' v') tt /\
    arrep m' v' ps' (l ++ skipn i lb) /\ frame m m' ps ps'.
Proof.
  induction n as [|n IH]; intros i m v ps l lb R F Pl D A Hi Hl.
  - exists m, v, ps. split; [reflexivity|]. split; [|apply frame_refl].
    rewrite skipn_all2; [now rewrite app_nil_r|]. apply Forall2_length in F. lia.
  - cbn [a_concat_from].
    destruct (nth_error pb i) as [p|] eqn:Ep; [|apply nth_error_None in Ep; lia].
    destruct (Forall2_nth _ _ _ F _ _ Ep) as (x & Ex & Lx).
    assert (P : a_ptr (mka (mem (mka m v)) vb) (Z.of_nat i) = Ret (mka m vb) p).
    { unfold a_ptr. cbn [arr mem]. destruct (rep_holds nat vb pb R) as [_ H].
      destruct (H (Z.of_nat i)) as (y & Ey & G); [lia|]. rewrite G. rewrite Nat2Z.id in Ey. congruence. }
    rewrite P. cbn [bind]. unfold a_load. cbn [mem]. rewrite Lx. cbn [bind].
    destruct (arr_push m v ps l var x A) as (m1 & v1 & E1 & A1 & F1); [lia|].
    rewrite E1. cbn [bind]. replace (Z.of_nat i + 1) with (Z.of_nat (S i)) by lia.
    rewrite stored_plain in A1. 2:{ rewrite Forall_forall in Pl. apply Pl. now apply nth_error_In in Ex. }
    assert (Hlt : forall q, In q pb -> (q < length m)%nat).
    { intros q Hq. apply In_nth_error in Hq. destruct Hq as [j Hq].
      destruct (Forall2_nth _ _ _ F _ _ Hq) as (y & _ & L). now apply load_lt in L. }
    destruct (IH (S i) m1 v1 (ps ++ [length m]) (l ++ [x]) lb) as (m2 & v2 & p2 & E2 & A2 & F2); auto.
    + apply (Forall2_weak _ _ _ _ F). intros q y Hq L. destruct F1 as (_ & S1 & _). rewrite S1; auto.
    + intros q Hq H. apply in_app_or in H. destruct H as [H|[<-|[]]]; [now apply (D q)|]. apply Hlt in Hq. lia.
    + lia.
    + rewrite app_length. simpl. lia.
    + exists m2, v2, p2. split; [exact E2|]. split; [|eapply frame_trans; eauto].
      replace (l ++ skipn i lb) with ((l ++ [x]) ++ skipn (S i) lb); auto.
      rewrite <- app_assoc. f_equal. simpl.
      clear -Ex. revert i Ex; induction lb as [|q lb IH]; intros [|i] E; simpl in *; try discriminate; [now inversion E|auto].
Qed.
Lemma arr_concat var vb pb m v ps l lb :
  arrep m vb pb lb -> Forall plain lb -> (forall p, In p pb -> ~ In p ps) ->
  arrep m v ps l -> Z.of_nat (length l) + Z.of_nat (length lb) < 1999985 ->
  exists m' v' ps', a_concat var (mka m v) vb = Ret (mka m' v') tt /\
    arrep m' v' ps' (l ++ lb) /\ frame m m' ps ps'.
Proof.
  intros B Pl D A Hl. pose proof B as (R & N & F).
  destruct (concat_from_ok var vb pb (length pb) 0 m v ps l lb R F Pl D A) as (m' & v' & ps' & E & A' & Fr); [lia| |].
  - rewrite (arrep_len _ _ _ _ B). lia.
  - exists m', v', ps'. split; [|split; auto]. unfold a_concat.
    pose proof R as (_ & C & _). rewrite C, Nat2Z.id. exact E.
Qed.

(** *** All arrays *)
Definition wrep (w : world) (pss : list (list nat)) (ls : list (list stk)) : Prop :=
  length (warrs w) = length ls /\ length pss = length ls /\
  (forall a v ps l, nth_error (warrs w) a = Some v -> nth_error pss a = Some ps -> nth_error ls a = Some l ->
     arrep (wmem w) v ps l) /\
  (forall a b ps qs p, nth_error pss a = Some ps -> nth_error pss b = Some qs -> In p ps -> In p qs -> a = b).

Lemma nth_upd {A} (l : list A) a x b : (a < length l)%nat ->
  nth_error (upd l a x) b = if Nat.eqb a b then Some x else nth_error l b.
Proof.
  intros H. destruct (Nat.eqb_spec a b) as [->|N]; [now apply nth_error_upd_eq | now apply nth_error_upd_ne].
Qed.

Lemma arrep_frame m m' v ps l qs qs' : arrep m v ps l -> frame m m' qs qs' ->
  (forall p, In p ps -> ~ In p qs) -> arrep m' v ps l.
Proof.
  intros A (_ & S & _) D. pose proof A as (R & N & F). split; auto. split; auto.
  apply (Forall2_weak _ _ _ _ F). intros p x Hp L. rewrite S; auto. now apply load_lt in L.
Qed.

(** Changing one array. *)
Lemma wrep_change w pss ls a v ps l m' v' ps' l' : wrep w pss ls ->
  nth_error (warrs w) a = Some v -> nth_error pss a = Some ps -> nth_error ls a = Some l ->
  arrep m' v' ps' l' -> frame (wmem w) m' ps ps' ->
  wrep (mkw m' (upd (warrs w) a v')) (upd pss a ps') (upd ls a l').
Proof.
  intros (L1 & L2 & Hr & Hd) Ev Ep El A Fr.
  assert (Ha : (a < length ls)%nat) by (apply nth_error_Some; congruence).
  split; [cbn [warrs]; rewrite !upd_length; auto|]. split; [rewrite !upd_length; auto|]. split.
  - intros b vb pb lb. cbn [warrs wmem]. rewrite !nth_upd by lia.
    destruct (Nat.eqb_spec a b) as [->|N]; [congruence|].
    intros E1 E2 E3. eapply arrep_frame; [eapply Hr; eauto|eauto|].
    intros p H1 H2. apply N. eapply Hd; eauto.
  - intros b c pb pc p. rewrite !nth_upd by lia. destruct Fr as (Lm & _ & Fr).
    assert (X : forall q b' pb', nth_error pss b' = Some pb' -> In q pb' -> In q ps' -> a = b').
    { intros q b' pb' E1 H1 H2. apply Fr in H2. destruct H2 as [H2|H2].
      - eapply Hd; eauto.
      - exfalso. assert (b' < length pss)%nat by (apply nth_error_Some; congruence).
        destruct (nth_error (warrs w) b') as [vb|] eqn:E2; [|apply nth_error_None in E2; lia].
        destruct (nth_error ls b') as [lb|] eqn:E3; [|apply nth_error_None in E3; lia].
        pose proof (arrep_lt _ _ _ _ _ (Hr _ _ _ _ E2 E1 E3) H1). lia. }
    destruct (Nat.eqb_spec a b) as [Eb|Nb], (Nat.eqb_spec a c) as [Ec|Nc].
    + congruence.
    + intros E1 E2 H1 H2. injection E1 as <-. rewrite <- Eb. eapply X; eauto.
    + intros E1 E2 H1 H2. injection E2 as <-. rewrite <- Ec. symmetry. eapply X; eauto.
    + eauto.
Qed.
Lemma wrep_new w pss ls : wrep w pss ls -> wrep (mkw (wmem w) (warrs w ++ [v_empty])) (pss ++ [[]]) (ls ++ [[]]).
Proof.
  intros (L1 & L2 & Hr & Hd). split; [cbn [warrs]; rewrite !app_length; cbn [length]; lia|]. split; [rewrite !app_length; cbn [length]; lia|]. split.
  - intros a v ps l. cbn [warrs wmem]. rewrite !nth_error_app, L1, L2.
    destruct (Nat.ltb_spec a (length ls)); [apply Hr|].
    destruct (a - length ls)%nat as [|k]; simpl; [|destruct k; discriminate].
    intros E1 E2 E3. inversion E1; inversion E2; inversion E3; subst. split; [apply rep_empty|]. split; constructor.
  - intros a b ps qs p. rewrite !nth_error_app, L2.
    destruct (Nat.ltb_spec a (length ls)), (Nat.ltb_spec b (length ls)); eauto.
    + intros _ E2 _ H2. destruct (b - length ls)%nat as [|k]; simpl in E2; [inversion E2; subst; destruct H2|destruct k; discriminate].
    + intros E2 _ H2 _. destruct (a - length ls)%nat as [|k]; simpl in E2; [inversion E2; subst; destruct H2|destruct k; discriminate].
    + intros E2 _ H2 _. destruct (a - length ls)%nat as [|k]; simpl in E2; [inversion E2; subst; destruct H2|destruct k; discriminate].
Qed.
Lemma wrep_at w pss ls a l : wrep w pss ls -> nth_error ls a = Some l ->
  exists v ps, nth_error (warrs w) a = Some v /\ nth_error pss a = Some ps /\ arrep (wmem w) v ps l.
Proof.
  intros (L1 & L2 & Hr & _) El. assert (a < length ls)%nat by (apply nth_error_Some; congruence).
  destruct (nth_error (warrs w) a) as [v|] eqn:E2; [|apply nth_error_None in E2; lia].
  destruct (nth_error pss a) as [ps|] eqn:E3; [|apply nth_error_None in E3; lia].
  eauto 6.
Qed.
Lemma wrep_shows w pss ls a l : wrep w pss ls -> nth_error ls a = Some l -> shows w a l.
Proof.
  intros W El. destruct (wrep_at _ _ _ _ _ W El) as (v & ps & Ev & _ & A).
  exists v. split; auto. split; [eapply arrep_count; eauto|].
  intros i Hi. destruct (nth_error l (Z.to_nat i)) as [x|] eqn:E; [|apply nth_error_None in E; lia].
  exists x. split; auto. eapply get_ok; eauto. unfold get_at. destruct (Z.ltb_spec i 0); [lia|auto].
Qed.

(** An operation that succeeds on the array succeeds in the world. *)
Lemma on_ok {A} w pss ls a l (f : ast -> outcome ast A) x l' : wrep w pss ls -> nth_error ls a = Some l ->
  (forall v ps, nth_error (warrs w) a = Some v -> nth_error pss a = Some ps -> arrep (wmem w) v ps l ->
     exists m' v' ps', f (mka (wmem w) v) = Ret (mka m' v') x /\ arrep m' v' ps' l' /\ frame (wmem w) m' ps ps') ->
  exists w' pss', on w a f = Ret w' x /\ wrep w' pss' (upd ls a l').
Proof.
  intros W El H. destruct (wrep_at _ _ _ _ _ W El) as (v & ps & Ev & Ep & Ar).
  destruct (H v ps Ev Ep Ar) as (m' & v' & ps' & E & A' & Fr).
  eexists _, (upd pss a ps'). unfold on. rewrite Ev, E. split; [reflexivity|].
  cbn [mem arr]. eapply wrep_change; eauto.
Qed.

Lemma splice_upd {A} (ls : list A) a (l' : A) : (a < length ls)%nat -> firstn a ls ++ l' :: skipn (a + 1) ls = upd ls a l'.
Proof. intros H. rewrite upd_split by auto. now rewrite Nat.add_1_r. Qed.
Lemma upd_same {A} (ls : list A) a (l : A) : nth_error ls a = Some l -> upd ls a l = ls.
Proof.
  intros H. apply nth_error_ext. intros b. rewrite nth_upd by (apply nth_error_Some; congruence).
  destruct (Nat.eqb_spec a b) as [<-|]; auto.
Qed.
Lemma upd_last {A} (ls : list A) x y : upd (ls ++ [x]) (length ls) y = ls ++ [y].
Proof. rewrite upd_app_r by lia. rewrite Nat.sub_diag. reflexivity. Qed.

Definition allplain (ls : list (list stk)) : Prop := forall a l, nth_error ls a = Some l -> Forall plain l.
Definition short (ls : list (list stk)) : Prop := forall a l, nth_error ls a = Some l -> Z.of_nat (length l) < 1999985.

Lemma forallb_nth {A} (f : A -> bool) (l : list A) a x : forallb f l = true -> nth_error l a = Some x -> f x = true.
Proof. intros H E. rewrite forallb_forall in H. apply H. now apply nth_error_In in E. Qed.

Lemma allplain_upd ls a l' : allplain ls -> Forall plain l' -> allplain (upd ls a l').
Proof.
  intros H P b l E. destruct (Nat.lt_ge_cases a (length ls)) as [L|L].
  - rewrite nth_upd in E by auto. destruct (Nat.eqb_spec a b); [congruence|eauto].
  - assert (upd ls a l' = ls) as X.
    { clear -L. revert a L; induction ls; intros [|a'] L; simpl in *; auto; try lia. f_equal. apply IHls. lia. }
    rewrite X in E. eauto.
Qed.
Lemma allplain_app ls l : allplain ls -> Forall plain l -> allplain (ls ++ [l]).
Proof.
  intros H P b l0 E. rewrite nth_error_app in E. destruct (Nat.ltb_spec b (length ls)); eauto.
  destruct (b - length ls)%nat as [|k]; simpl in E; [inversion E; subst; auto|destruct k; discriminate].
Qed.

Ltac mod_inv E :=
  unfold silent, modify in E;
  match type of E with context [nth_error ?ls ?a] =>
    let l := fresh "l" in let El := fresh "El" in destruct (nth_error ls a) as [l|] eqn:El; [|discriminate]
  end.

Lemma astep_ok var o w pss ls ls' x : wrep w pss ls -> allplain ls -> Forall plain (args o) ->
  seqs_step o ls = Some (ls', x) -> short ls' -> exists w' pss', astep var o w = Ret w' x /\ wrep w' pss' ls' /\ allplain ls'.
Proof.
  intros W Pl Pa E Sh. destruct o as [|a y|a|a i|a i y|a z y|a z|a|a b|a b|a]; cbn [seqs_step astep args] in *.
  - inversion E; subst. eexists _, _. split; [reflexivity|]. split; [apply (wrep_new _ _ _ W)|]. apply allplain_app; auto.
  - mod_inv E. inversion E; subst; clear E.
    assert (La : (a < length ls)%nat) by (apply nth_error_Some; congruence).
    rewrite splice_upd in * by auto. inversion Pa as [|? ? Py _]; subst.
    assert (Sl : Z.of_nat (length (l ++ [y])) < 1999985).
    { apply (Sh a). rewrite nth_upd by auto. now rewrite Nat.eqb_refl. }
    rewrite app_length in Sl. simpl in Sl.
    destruct (on_ok w pss ls a l (fun s => a_push var s y) tt (l ++ [y]) W El) as (w' & pss' & E' & W').
    { intros v ps _ _ A. destruct (arr_push _ _ _ _ var y A) as (m' & v' & E1 & A1 & F1); [lia|].
      rewrite stored_plain in A1 by auto. eauto 8. }
    unfold wquiet. rewrite E'. cbn [bind]. eexists _, _. split; [reflexivity|]. split; eauto.
    apply allplain_upd; auto. apply Forall_app. split; eauto.
  - destruct (nth_error ls a) as [l|] eqn:El; [|discriminate]. destruct (rev l) as [|y r] eqn:Er; [discriminate|].
    unfold modify in E. rewrite El in E. inversion E; subst; clear E.
    assert (La : (a < length ls)%nat) by (apply nth_error_Some; congruence).
    rewrite splice_upd in * by auto.
    destruct (on_ok w pss ls a l a_pop y (removelast l) W El) as (w' & pss' & E' & W').
    { intros v ps _ _ A. destruct (arr_pop _ _ _ _ _ _ A Er) as (m' & v' & p' & E1 & A1 & F1). eauto 8. }
    rewrite E'. cbn [bind]. eexists _, _. split; [reflexivity|]. split; eauto.
    apply allplain_upd; auto. rewrite removelast_firstn_len. apply Forall_forall. intros q Hq.
    specialize (Pl _ _ El). rewrite Forall_forall in Pl. apply Pl. eapply firstn_In; eauto.
  - destruct (nth_error ls a) as [l|] eqn:El; [|discriminate].
    destruct (get_at l i) as [y|] eqn:G; [|discriminate]. inversion E; subst; clear E.
    destruct (on_ok w pss ls' a l (fun s => a_get s i) y l W El) as (w' & pss' & E' & W').
    { intros v ps _ _ A. exists (wmem w), v, ps. split; [eapply get_ok; eauto|]. split; auto. apply frame_refl. }
    rewrite E'. cbn [bind]. eexists _, _. split; [reflexivity|]. rewrite upd_same in W' by auto. eauto.
  - mod_inv E. destruct (set_at l i y) as [l'|] eqn:Es; [|discriminate]. inversion E; subst; clear E.
    assert (La : (a < length ls)%nat) by (apply nth_error_Some; congruence).
    rewrite splice_upd in * by auto. inversion Pa as [|? ? Py _]; subst.
    destruct (on_ok w pss ls a l (fun s => a_set var s i y) tt l' W El) as (w' & pss' & E' & W').
    { intros v ps _ _ A. rewrite <- (stored_plain var y Py) in Es.
      destruct (arr_set _ _ _ _ var i y l' A Es) as (m' & E1 & A1 & F1). eauto 8. }
    unfold wquiet. rewrite E'. cbn [bind]. eexists _, _. split; [reflexivity|]. split; eauto.
    apply allplain_upd; auto. unfold set_at in Es. destruct (get_at l i); [|discriminate]. inversion Es; subst.
    specialize (Pl _ _ El). rewrite Forall_forall in Pl. apply Forall_app. split.
    + apply Forall_forall. intros q Hq. apply Pl. eapply firstn_In; eauto.
    + constructor; auto. apply Forall_forall. intros q Hq. apply Pl. eapply skipn_In; eauto.
  - mod_inv E. destruct (insert_at l z y) as [l'|] eqn:Es; [|discriminate]. inversion E; subst; clear E.
    assert (La : (a < length ls)%nat) by (apply nth_error_Some; congruence).
    rewrite splice_upd in * by auto. inversion Pa as [|? ? Py _]; subst.
    assert (Sl : Z.of_nat (length l') < 1999985).
    { apply (Sh a). rewrite nth_upd by auto. now rewrite Nat.eqb_refl. }
    destruct (on_ok w pss ls a l (fun s => a_insertAt var s z y) tt l' W El) as (w' & pss' & E' & W').
    { intros v ps _ _ A. rewrite <- (stored_plain var y Py) in Es.
      destruct (arr_insert _ _ _ _ var z y l' A Es) as (m' & v' & E1 & A1 & F1); [|eauto 8].
      unfold insert_at in Es. destruct ((0 <=? z) && (z <=? Z.of_nat (length l))); [|discriminate]. inversion Es; subst.
      rewrite app_length in Sl. simpl in Sl. rewrite firstn_length, skipn_length in Sl. lia. }
    unfold wquiet. rewrite E'. cbn [bind]. eexists _, _. split; [reflexivity|]. split; eauto.
    apply allplain_upd; auto. unfold insert_at in Es.
    destruct ((0 <=? z) && (z <=? Z.of_nat (length l))); [|discriminate]. inversion Es; subst.
    specialize (Pl _ _ El). rewrite Forall_forall in Pl. apply Forall_app. split.
    + apply Forall_forall. intros q Hq. apply Pl. eapply firstn_In; eauto.
    + constructor; auto. apply Forall_forall. intros q Hq. apply Pl. eapply skipn_In; eauto.
  - mod_inv E. destruct (erase_at l z) as [l'|] eqn:Es; [|discriminate]. inversion E; subst; clear E.
    assert (La : (a < length ls)%nat) by (apply nth_error_Some; congruence).
    rewrite splice_upd in * by auto.
    assert (Sl : Z.of_nat (length l') < 1999985).
    { apply (Sh a). rewrite nth_upd by auto. now rewrite Nat.eqb_refl. }
    destruct (on_ok w pss ls a l (fun s => a_eraseAt s z) tt l' W El) as (w' & pss' & E' & W').
    { intros v ps _ _ A. destruct (arr_erase _ _ _ _ _ _ A Es) as (p & v' & _ & E1 & _ & A1 & F1).
      eexists _, _, _. split; [|split; eauto]. unfold a_eraseAt. rewrite to_int_small; auto.
      unfold erase_at in Es. destruct (get_at l z) as [y|] eqn:G; [|discriminate]. inversion Es; subst.
      destruct (elem_at _ _ _ _ _ _ A G) as (_ & Hi & _). rewrite app_length, firstn_length, skipn_length in Sl. lia. }
    unfold wquiet. rewrite E'. cbn [bind]. eexists _, _. split; [reflexivity|]. split; eauto.
    apply allplain_upd; auto. unfold erase_at in Es. destruct (get_at l z); [|discriminate]. inversion Es; subst.
    specialize (Pl _ _ El). rewrite Forall_forall in Pl. apply Forall_app. split; apply Forall_forall; intros q Hq; apply Pl.
    + eapply firstn_In; eauto.
    + eapply skipn_In; eauto.
  - mod_inv E. inversion E; subst; clear E.
    assert (La : (a < length ls)%nat) by (apply nth_error_Some; congruence). rewrite splice_upd in * by auto.
    destruct (on_ok w pss ls a l a_clear tt [] W El) as (w' & pss' & E' & W').
    { intros v ps _ _ A. destruct (arr_clear _ _ _ _ A) as (m' & E1 & A1 & F1). eauto 8. }
    unfold wquiet. rewrite E'. cbn [bind]. eexists _, _. split; [reflexivity|]. split; eauto. apply allplain_upd; auto.
  - destruct (Nat.eqb_spec a b) as [|Nab]; [discriminate|].
    destruct (nth_error ls b) as [lb|] eqn:Eb; [|discriminate]. mod_inv E. inversion E; subst; clear E.
    assert (La : (a < length ls)%nat) by (apply nth_error_Some; congruence). rewrite splice_upd in * by auto.
    assert (Sl : Z.of_nat (length (l ++ lb)) < 1999985).
    { apply (Sh a). rewrite nth_upd by auto. now rewrite Nat.eqb_refl. }
    rewrite app_length in Sl.
    destruct (wrep_at _ _ _ _ _ W Eb) as (vb & pb & Evb & Epb & Ab). rewrite Evb.
    destruct (on_ok w pss ls a l (fun s => a_concat var s vb) tt (l ++ lb) W El) as (w' & pss' & E' & W').
    { intros v ps _ Ep A. destruct (arr_concat var vb pb (wmem w) v ps l lb) as (m' & v' & p' & E1 & A1 & F1); eauto.
      - intros p H1 H2. apply Nab. destruct W as (_ & _ & _ & Hd). eapply Hd; eauto.
      - lia.
      - eauto 8. }
    unfold wquiet. rewrite E'. cbn [bind]. eexists _, _. split; [reflexivity|]. split; eauto.
    apply allplain_upd; auto. apply Forall_app. split; eauto.
  - destruct (nth_error ls a) as [la|] eqn:Ea; [|discriminate].
    destruct (nth_error ls b) as [lb|] eqn:Eb; [|discriminate]. inversion E; subst; clear E.
    destruct (wrep_at _ _ _ _ _ W Ea) as (va & pa & Eva & Epa & Aa). rewrite Eva.
    destruct (wrep_at _ _ _ _ _ W Eb) as (vb & pb & Evb & Epb & Ab). rewrite Evb.
    assert (Sl : Z.of_nat (length (la ++ lb)) < 1999985).
    { apply (Sh (length ls)). rewrite nth_error_app2, Nat.sub_diag by lia. reflexivity. }
    rewrite app_length in Sl.
    pose proof (wrep_new _ _ _ W) as W0.
    pose proof (proj1 W) as Lw.
    destruct (on_ok _ _ _ (length (warrs w)) [] (fun s => bind (a_concat var s va) (fun s _ => a_concat var s vb)) tt (la ++ lb) W0)
      as (w' & pss' & E' & W').
    { rewrite Lw. rewrite nth_error_app2, Nat.sub_diag by lia. reflexivity. }
    { intros v ps Ev Ep A. cbn [wmem] in *.
      assert (ps = []) as -> by (apply arrep_len in A; destruct ps; auto; discriminate).
      destruct (arr_concat var va pa (wmem w) v [] [] la) as (m1 & v1 & p1 & E1 & A1 & F1); eauto.
      { simpl. lia. }
      rewrite E1. cbn [bind].
      assert (Dn : forall p, In p pb -> ~ In p p1).
      { intros p H1 H2. apply F1 in H2. destruct H2 as [[]|H2].
        pose proof (arrep_lt _ _ _ _ _ Ab H1). lia. }
      destruct (arr_concat var vb pb m1 v1 p1 la lb) as (m2 & v2 & p2 & E2 & A2 & F2); eauto.
      - eapply arrep_frame; eauto.
      - lia.
      - exists m2, v2, p2. split; auto. split; auto. eapply frame_trans; eauto. }
    unfold wquiet. rewrite E'. cbn [bind]. eexists _, _. split; [reflexivity|].
    rewrite Lw, upd_last in W'. split; eauto. apply allplain_app; auto. apply Forall_app. split; eauto.
  - destruct (nth_error ls a) as [l|] eqn:El; [|discriminate]. inversion E; subst; clear E.
    destruct (wrep_at _ _ _ _ _ W El) as (v & ps & Ev & Ep & A). rewrite Ev.
    eexists _, _. split; [rewrite (arrep_count _ _ _ _ A); reflexivity|]. eauto.
Qed.

Lemma arun_ok var : forall os w pss ls ls' xs, wrep w pss ls -> allplain ls -> Forall (fun o => Forall plain (args o)) os ->
  seqs_run 1999985 os ls = Some (ls', xs) ->
  exists w' pss', arun var os w = Ret w' xs /\ wrep w' pss' ls' /\ allplain ls'.
Proof.
  induction os as [|o os IH]; intros w pss ls ls' xs W Pl Pa E; cbn [seqs_run arun] in *.
  - inversion E; subst. eauto.
  - destruct (seqs_step o ls) as [[l1 x]|] eqn:Es; [|discriminate].
    destruct (forallb (fun l => Z.of_nat (length l) <? 1999985) l1) eqn:Eb; [|discriminate].
    destruct (seqs_run 1999985 os l1) as [[l2 ys]|] eqn:Er; [|discriminate]. inversion E; subst; clear E.
    inversion Pa as [|? ? P1 P2]; subst.
    destruct (astep_ok var o w pss ls l1 x W Pl P1 Es) as (w1 & p1 & E1 & W1 & Pl1).
    { intros a l El. pose proof (forallb_nth _ _ _ _ Eb El) as X. cbn beta in X. now apply Z.ltb_lt in X. }
    destruct (IH w1 p1 l1 ls' ys W1 Pl1 P2 Er) as (w2 & p2 & E2 & W2 & Pl2).
    exists w2, p2. rewrite E1. cbn [bind]. rewrite E2. auto.
Qed.
Lemma wrep_empty : wrep w_empty [] [].
Proof. split; auto. split; auto. split; intros []; discriminate. Qed.
