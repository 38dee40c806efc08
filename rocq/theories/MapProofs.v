From Coq Require Import List ZArith Bool Lia Permutation Sorted.
From Verif Require Import Base ListModel ListSpec ListProofs MapModel MapSpec.
Import ListNotations.
Open Scope Z_scope.

Local Opaque MAX_ITEMS.
Section Proofs.
Variables K V : Type.
Variable cmp : K -> K -> comparison.
Variable eqk : K -> K -> bool.
Variable SLOT : Z.
Variable wrap : Z -> Z.
Variable cap : Z.
Hypothesis cmp_eq : forall a b, cmp a b = Eq <-> a = b.
Hypothesis cmp_opp : forall a b, cmp b a = CompOpp (cmp a b).
Hypothesis cmp_trans : forall a b c, cmp a b = Lt -> cmp b c = Lt -> cmp a c = Lt.
Hypothesis eqk_eq : forall a b, eqk a b = true <-> a = b.
Hypothesis slot_pos_ : 0 < SLOT.
Hypothesis cap_ok : 0 <= cap <= MAX_ITEMS - SLOT.
Hypothesis slot_max : SLOT < MAX_ITEMS.
Hypothesis wrap_ok : forall n, 0 <= n <= cap -> wrap n = n.

Definition klt (a b : K * nat) : Prop := cmp (fst a) (fst b) = Lt.
Definition entry : Type := (K * V * nat)%type.
Definition e_kv (e : entry) : K * V := fst e.
Definition e_id (e : entry) : nat := snd e.
Definition e_kn (e : entry) : K * nat := (fst (fst e), snd e).

(** Table sizes the growth policy can produce. *)
Definition size_ok (n : nat) : Prop := Z.of_nat n mod SLOT = 0 /\ Z.of_nat n < MAX_ITEMS.

Record rep (m : map K V) (E : list entry) (T : list (K * nat)) : Prop := {
  r_inv : inv (ring_of m) (List.map e_id E);
  r_fields : forall e, In e E -> nkey m (e_id e) = Some (fst (fst e)) /\ nval m (e_id e) = Some (snd (fst e));
  r_keys : NoDup (List.map (fun e : entry => fst (fst e)) E);
  r_perm : Permutation T (List.map e_kn E);
  r_sorted : StronglySorted klt T;
  r_count : mcount m = Z.of_nat (length T);
  r_room : (length T <= length (tbl m))%nat;
  r_cells : forall i, (i < length T)%nat -> nth_error (tbl m) i = Some (nth_error T i);
  r_brk : forall e, In e E -> (e_id e < brk m)%nat;
  r_fresh : forall n, (brk m <= n)%nat -> nkey m n = None;
  r_size : size_ok (length (tbl m)) }.

Definition mrep (m : map K V) (l : list (K * V)) : Prop :=
  exists E T, rep m E T /\ l = List.map e_kv E.

Lemma rep_len m E T : rep m E T -> length T = length E.
Proof. intros R. rewrite (Permutation_length (r_perm _ _ _ R)). apply map_length. Qed.

Lemma nth_error_map2 {A B} (f : A -> B) l i : nth_error (List.map f l) i = option_map f (nth_error l i).
Proof. apply nth_error_map'. Qed.

(** *** Sorted tables *)
Lemma ss_nth T i j a b : StronglySorted klt T -> (i < j)%nat ->
  nth_error T i = Some a -> nth_error T j = Some b -> klt a b.
Proof.
  intros H; revert i j; induction H as [|x T HS IH HF]; intros i j Hij Ha Hb.
  - destruct i; discriminate.
  - destruct j; [lia|]. destruct i.
    + simpl in *. inversion Ha; subst. rewrite Forall_forall in HF. apply HF.
      eapply nth_error_In; eauto.
    + simpl in *. eapply IH; [|eauto|eauto]. lia.
Qed.

Lemma ss_app_remove T1 a T2 : StronglySorted klt (T1 ++ a :: T2) -> StronglySorted klt (T1 ++ T2).
Proof.
  induction T1 as [|x T1 IH]; simpl; intros H; inversion H; subst; auto.
  constructor; auto. rewrite Forall_forall in *. intros y Hy. apply H3.
  rewrite in_app_iff in *. simpl. tauto.
Qed.

Lemma ss_app_insert T1 a T2 : StronglySorted klt (T1 ++ T2) ->
  (forall x, In x T1 -> klt x a) -> (forall x, In x T2 -> klt a x) ->
  StronglySorted klt (T1 ++ a :: T2).
Proof.
  induction T1 as [|x T1 IH]; simpl; intros H H1 H2.
  - constructor; auto. rewrite Forall_forall. auto.
  - inversion H; subst. constructor.
    + apply IH; auto.
    + rewrite Forall_forall in *. intros y Hy. rewrite in_app_iff in Hy. simpl in Hy.
      destruct Hy as [Hy|[<-|Hy]]; auto; apply H5; rewrite in_app_iff; auto.
Qed.

Section Table.
Variables (m : map K V) (T : list (K * nat)).
Hypothesis HS : StronglySorted klt T.
Hypothesis HC : forall i, (i < length T)%nat -> nth_error (tbl m) i = Some (nth_error T i).

Lemma key_at_T i : 0 <= i < Z.of_nat (length T) ->
  exists a, nth_error T (Z.to_nat i) = Some a /\ key_at m i = Some (fst a).
Proof.
  intros Hi. assert (H : (Z.to_nat i < length T)%nat) by lia.
  destruct (nth_error T (Z.to_nat i)) as [[k n]|] eqn:E; [|apply nth_error_None in E; lia].
  exists (k, n). split; auto. unfold key_at. rewrite rd_nth by lia. rewrite HC by lia. rewrite E. reflexivity.
Qed.

Lemma search_loop_ok key : forall fuel lo hi,
  0 <= lo -> hi < Z.of_nat (length T) -> lo <= hi + 1 -> hi - lo + 1 < Z.of_nat fuel ->
  (forall i a, Z.of_nat i < lo -> nth_error T i = Some a -> cmp (fst a) key = Lt) ->
  (forall i a, hi < Z.of_nat i -> nth_error T i = Some a -> cmp (fst a) key = Gt) ->
  exists r, search_loop cmp fuel m key lo hi = Some r /\
    ((r = -1 /\ forall n, ~ In (key, n) T) \/
     (0 <= r < Z.of_nat (length T) /\ exists n, nth_error T (Z.to_nat r) = Some (key, n))).
Proof.
  induction fuel as [|f IH]; intros lo hi Hlo Hhi Hw Hfu HL HG; [lia|].
  cbn [search_loop]. destruct (Z.leb_spec lo hi).
  - assert (Hm : lo <= (lo + hi) / 2 <= hi)
      by (split; [apply Z.div_le_lower_bound; lia|apply Z.div_le_upper_bound; lia]).
    set (mid := (lo + hi) / 2) in *.
    destruct (key_at_T mid) as (a & Ha & Hk); [lia|]. rewrite Hk.
    destruct (cmp (fst a) key) eqn:Ec.
    + apply cmp_eq in Ec. exists mid. split; auto. right. split; [lia|].
      exists (snd a). rewrite Ha. destruct a; simpl in *; subst; auto.
    + apply IH; try lia; auto. intros i b Hi Hb.
      destruct (Z.eq_dec (Z.of_nat i) mid) as [Em|Em].
      * replace (Z.to_nat mid) with i in Ha by lia. congruence.
      * apply cmp_trans with (fst a); auto.
        apply (ss_nth T i (Z.to_nat mid)); auto. lia.
    + apply IH; try lia; auto. intros i b Hi Hb.
      destruct (Z.eq_dec (Z.of_nat i) mid) as [Em|Em].
      * replace (Z.to_nat mid) with i in Ha by lia. congruence.
      * assert (klt a b) by (apply (ss_nth T (Z.to_nat mid) i); auto; lia).
        assert (Hl : cmp key (fst b) = Lt).
        { apply cmp_trans with (fst a); auto. rewrite cmp_opp, Ec. reflexivity. }
        rewrite cmp_opp, Hl. reflexivity.
  - exists (-1). split; auto. left. split; auto. intros n Hin.
    apply In_nth_error in Hin. destruct Hin as [i Hi].
    assert (Hkk : cmp (fst (key, n)) key = Eq) by (apply cmp_eq; reflexivity).
    destruct (Z_lt_le_dec (Z.of_nat i) lo).
    + specialize (HL i _ l Hi). congruence.
    + specialize (HG i _ ltac:(lia) Hi). congruence.
Qed.

Lemma search_ok key : mcount m = Z.of_nat (length T) ->
  exists r, search cmp m key = Some r /\
    ((r = -1 /\ forall n, ~ In (key, n) T) \/
     (0 <= r < Z.of_nat (length T) /\ exists n, nth_error T (Z.to_nat r) = Some (key, n))).
Proof.
  intros Hcnt. unfold search. rewrite Hcnt. destruct (Z.ltb_spec (Z.of_nat (length T) - 1) 0).
  - exists (-1). split; auto. left. split; auto. intros n Hin.
    assert (H0 : length T = 0%nat) by lia. apply length_zero_iff_nil in H0. rewrite H0 in Hin. exact Hin.
  - apply search_loop_ok; try lia.
    intros i a Hi Ha. assert (nth_error T i <> None) by congruence.
    apply nth_error_Some in H0. lia.
Qed.

Definition splits (key : K) (p : Z) : Prop :=
  0 <= p <= Z.of_nat (length T) /\
  (forall x, In x (firstn (Z.to_nat p) T) -> cmp (fst x) key = Lt) /\
  (forall x, In x (skipn (Z.to_nat p) T) -> cmp key (fst x) = Lt).

Lemma splits_intro key p : 0 <= p <= Z.of_nat (length T) ->
  (forall i a, Z.of_nat i < p -> nth_error T i = Some a -> cmp (fst a) key = Lt) ->
  (forall i a, p <= Z.of_nat i -> nth_error T i = Some a -> cmp (fst a) key = Gt) ->
  splits key p.
Proof.
  intros Hp H1 H2. split; auto. split; intros x Hx; apply In_nth_error in Hx; destruct Hx as [i Hi].
  - rewrite nth_error_firstn in Hi. destruct (Nat.ltb_spec i (Z.to_nat p)); [|discriminate].
    eapply H1; eauto. lia.
  - rewrite nth_error_skipn in Hi. assert (cmp (fst x) key = Gt) by (eapply H2; eauto; lia).
    rewrite cmp_opp, H. reflexivity.
Qed.

Lemma slot_loop_ok key : (forall n, ~ In (key, n) T) -> forall fuel lo hi,
  0 <= lo -> lo <= hi -> hi < Z.of_nat (length T) -> hi - lo < Z.of_nat fuel ->
  (forall i a, Z.of_nat i < lo -> nth_error T i = Some a -> cmp (fst a) key = Lt) ->
  (forall i a, hi <= Z.of_nat i -> nth_error T i = Some a -> cmp (fst a) key = Gt) ->
  exists p, slot_loop cmp fuel m key lo hi = Some p /\ splits key p.
Proof.
  intros Hni. induction fuel as [|f IH]; intros lo hi Hlo Hle Hhi Hfu HL HG; [lia|].
  cbn [slot_loop]. destruct (Z.ltb_spec lo hi).
  - assert (Hm : lo <= (lo + hi) / 2 < hi)
      by (split; [apply Z.div_le_lower_bound; lia|apply Z.div_lt_upper_bound; lia]).
    set (mid := (lo + hi) / 2) in *.
    destruct (key_at_T mid) as (a & Ha & Hk); [lia|]. rewrite Hk.
    assert (Hup : cmp (fst a) key = Lt ->
       forall i b, Z.of_nat i < mid + 1 -> nth_error T i = Some b -> cmp (fst b) key = Lt).
    { intros Ec i b Hi Hb. destruct (Z.eq_dec (Z.of_nat i) mid) as [Em|Em].
      - replace (Z.to_nat mid) with i in Ha by lia. congruence.
      - apply cmp_trans with (fst a); auto. apply (ss_nth T i (Z.to_nat mid)); auto. lia. }
    destruct (cmp (fst a) key) eqn:Ec.
    + apply cmp_eq in Ec. exfalso. apply (Hni (snd a)). eapply nth_error_In. rewrite Ha.
      destruct a; simpl in *; subst; auto.
    + apply IH; try lia; auto; apply Hup; reflexivity.
    + apply IH; try lia; auto. intros i b Hi Hb.
      destruct (Z.eq_dec (Z.of_nat i) mid) as [Em|Em].
      * replace (Z.to_nat mid) with i in Ha by lia. congruence.
      * assert (klt a b) by (apply (ss_nth T (Z.to_nat mid) i); auto; lia).
        assert (Hl : cmp key (fst b) = Lt).
        { apply cmp_trans with (fst a); auto. rewrite cmp_opp, Ec. reflexivity. }
        rewrite cmp_opp, Hl. reflexivity.
  - assert (lo = hi) by lia. subst hi. exists lo. split; auto. apply splits_intro; auto. lia.
Qed.

Lemma slot_pos_ok key : mcount m = Z.of_nat (length T) -> (forall n, ~ In (key, n) T) ->
  exists p, slot_pos cmp m key = Some p /\ splits key p.
Proof.
  intros Hcnt Hni. unfold slot_pos. rewrite Hcnt.
  destruct (Z.ltb_spec 0 (Z.of_nat (length T))).
  - destruct (key_at_T (Z.of_nat (length T) - 1)) as (a & Ha & Hk); [lia|]. rewrite Hk.
    destruct (cmp (fst a) key) eqn:Ec.
    + apply cmp_eq in Ec. exfalso. apply (Hni (snd a)). eapply nth_error_In. rewrite Ha.
      destruct a; simpl in *; subst; auto.
    + exists (Z.of_nat (length T)). split; auto. apply splits_intro; [lia| |].
      * intros i b Hi Hb. destruct (Nat.eq_dec i (length T - 1)) as [->|Ne].
        { replace (Z.to_nat (Z.of_nat (length T) - 1)) with (length T - 1)%nat in Ha by lia. congruence. }
        apply cmp_trans with (fst a); auto. refine (ss_nth T i _ b a HS _ Hb Ha). lia.
      * intros i b Hi Hb. assert (nth_error T i <> None) by congruence. apply nth_error_Some in H0. lia.
    + apply slot_loop_ok; auto; try lia.
      * intros i b Hi Hb. assert (i = Z.to_nat (Z.of_nat (length T) - 1)).
        { assert (nth_error T i <> None) by congruence. apply nth_error_Some in H0. lia. }
        subst i. congruence.
  - exists 0. split; auto. apply splits_intro; [lia| |]; intros i b Hi Hb; [lia|].
    assert (nth_error T i <> None) by congruence. apply nth_error_Some in H0. lia.
Qed.
End Table.

(** *** pushSlot *)
Lemma m_pushSlot_gen (m : map K V) n : mcount m = Z.of_nat n -> (n <= length (tbl m))%nat ->
  Z.of_nat n + SLOT < MAX_ITEMS -> size_ok (length (tbl m)) ->
  exists t, m_pushSlot SLOT wrap m = Ret (mkmap t (wrap (Z.of_nat n + 1)) (ring_of m) (nkey m) (nval m) (brk m)) tt
    /\ size_ok (length t) /\ (n < length t)%nat /\ forall i, (i < n)%nat -> nth_error t i = nth_error (tbl m) i.
Proof.
  intros Hc Hle Hcap [Hs1 Hs2]. unfold m_pushSlot, msize. cbn [tbl mcount]. rewrite Hc.
  destruct (Z.eqb_spec (Z.of_nat (length (tbl m))) 0) as [E|E].
  - rewrite repeat_length. destruct (Z.eqb_spec (Z.of_nat (Z.to_nat SLOT)) (Z.of_nat n)); [lia|].
    eexists. split; [reflexivity|]. rewrite repeat_length. split; [|split; [lia|]; intros; lia].
    split; rewrite Z2Nat.id by lia; auto. apply Z_mod_same_full.
  - destruct (Z.eqb_spec (Z.of_nat (length (tbl m))) (Z.of_nat n)).
    + destruct (Z.leb_spec MAX_ITEMS (Z.of_nat (length (tbl m)) + SLOT)); [lia|].
      eexists. split; [reflexivity|]. rewrite app_length, repeat_length.
      split; [|split; [lia|]; intros i Hi; rewrite nth_error_app1; auto; lia].
      split; [|lia]. rewrite Nat2Z.inj_add, Z2Nat.id by lia.
      rewrite Z.add_mod, Z_mod_same_full, Hs1 by lia. reflexivity.
    + eexists. split; [reflexivity|]. split; [split; auto|]. split; [lia|auto].
Qed.

Lemma m_pushSlot_ok (m : map K V) n : mcount m = Z.of_nat n -> (n <= length (tbl m))%nat ->
  Z.of_nat n + 1 <= cap -> size_ok (length (tbl m)) ->
  exists t, m_pushSlot SLOT wrap m = Ret (mkmap t (Z.of_nat n + 1) (ring_of m) (nkey m) (nval m) (brk m)) tt
    /\ size_ok (length t) /\ (n < length t)%nat /\ forall i, (i < n)%nat -> nth_error t i = nth_error (tbl m) i.
Proof.
  intros Hc Hle Hcap Hs. rewrite <- (wrap_ok (Z.of_nat n + 1)) by lia.
  apply m_pushSlot_gen; auto. lia.
Qed.

(** *** abstraction lemmas *)
Lemma lookup_in (E : list entry) key v n :
  NoDup (List.map (fun e : entry => fst (fst e)) E) -> In (key, v, n) E ->
  lookup eqk key (List.map e_kv E) = Some v.
Proof.
  induction E as [|e E IH]; simpl; [tauto|]. intros Hnd [->|Hin].
  - simpl. assert (eqk key key = true) as -> by now apply eqk_eq. reflexivity.
  - inversion Hnd; subst. destruct e as [[k w] p]. simpl in *.
    destruct (eqk k key) eqn:Ek; auto. apply eqk_eq in Ek. subst. exfalso. apply H1.
    apply (in_map (fun e : entry => fst (fst e))) in Hin. exact Hin.
Qed.

Lemma lookup_notin (E : list entry) key : (forall v n, ~ In (key, v, n) E) ->
  lookup eqk key (List.map e_kv E) = None.
Proof.
  induction E as [|e E IH]; simpl; auto. intros H. destruct e as [[k w] p]. simpl.
  destruct (eqk k key) eqn:Ek.
  - apply eqk_eq in Ek. subst. exfalso. apply (H w p). auto.
  - apply IH. intros v n Hin. apply (H v n). auto.
Qed.

Lemma put_notin (E : list entry) key v : (forall v n, ~ In (key, v, n) E) ->
  put eqk key v (List.map e_kv E) = List.map e_kv E ++ [(key, v)].
Proof.
  induction E as [|e E IH]; simpl; auto. intros H. destruct e as [[k w] p]. simpl.
  destruct (eqk k key) eqn:Ek.
  - apply eqk_eq in Ek. subst. exfalso. apply (H w p). auto.
  - rewrite IH; auto. intros v' n Hin. apply (H v' n). auto.
Qed.

Lemma put_split (E1 E2 : list entry) key v w n : (forall v n, ~ In (key, v, n) E1) ->
  put eqk key v (List.map e_kv (E1 ++ (key, w, n) :: E2)) = List.map e_kv (E1 ++ (key, v, n) :: E2).
Proof.
  induction E1 as [|e E1 IH]; simpl; intros H.
  - assert (eqk key key = true) as -> by now apply eqk_eq. reflexivity.
  - destruct e as [[k x] p]. simpl. destruct (eqk k key) eqn:Ek.
    + apply eqk_eq in Ek. subst. exfalso. apply (H x p). auto.
    + rewrite IH; auto. intros v' q Hin. apply (H v' q). auto.
Qed.

Lemma del_split (E1 E2 : list entry) key w n : (forall v n, ~ In (key, v, n) E1) ->
  del eqk key (List.map e_kv (E1 ++ (key, w, n) :: E2)) = List.map e_kv (E1 ++ E2).
Proof.
  induction E1 as [|e E1 IH]; simpl; intros H.
  - assert (eqk key key = true) as -> by now apply eqk_eq. reflexivity.
  - destruct e as [[k x] p]. simpl. destruct (eqk k key) eqn:Ek.
    + apply eqk_eq in Ek. subst. exfalso. apply (H x p). auto.
    + rewrite IH; auto. intros v' q Hin. apply (H v' q). auto.
Qed.

Lemma keys_unique (E1 E2 : list entry) key w n :
  NoDup (List.map (fun e : entry => fst (fst e)) (E1 ++ (key, w, n) :: E2)) ->
  (forall v n, ~ In (key, v, n) E1) /\ (forall v n, ~ In (key, v, n) E2).
Proof.
  rewrite map_app. cbn [List.map]. intros H. apply NoDup_remove_2 in H. rewrite in_app_iff in H.
  split; intros v' n' Hin; apply H.
  - left. apply (in_map (fun e : entry => fst (fst e))) in Hin. exact Hin.
  - right. apply (in_map (fun e : entry => fst (fst e))) in Hin. exact Hin.
Qed.

Lemma fupd_eq {T} (f : nat -> option T) k v : fupd f k v k = v.
Proof. unfold fupd. now rewrite Nat.eqb_refl. Qed.
Lemma fupd_ne {T} (f : nat -> option T) k v x : x <> k -> fupd f k v x = f x.
Proof. intros H. unfold fupd. destruct (Nat.eqb_spec x k); congruence. Qed.

Lemma find_entry m E T r key n : rep m E T -> nth_error T r = Some (key, n) ->
  exists E1 E2 w, E = E1 ++ (key, w, n) :: E2.
Proof.
  intros R Hn. apply nth_error_In in Hn.
  apply (Permutation_in _ (r_perm _ _ _ R)) in Hn. apply in_map_iff in Hn.
  destruct Hn as ([[k w] p] & He & Hin). unfold e_kn in He. simpl in He. inversion He; subst.
  apply in_split in Hin. destruct Hin as (E1 & E2 & ->). eauto.
Qed.

Lemma absent_entry m E T key : rep m E T -> (forall n, ~ In (key, n) T) -> forall v n, ~ In (key, v, n) E.
Proof.
  intros R H v n Hin. apply (H n). apply (Permutation_in _ (Permutation_sym (r_perm _ _ _ R))).
  apply (in_map e_kn) in Hin. exact Hin.
Qed.

(** *** the operations *)
Lemma rd_table m E T r key n : rep m E T -> 0 <= r < Z.of_nat (length T) ->
  nth_error T (Z.to_nat r) = Some (key, n) -> rd (tbl m) r = Some (Some (key, n)).
Proof.
  intros R Hr Hn. rewrite rd_nth by lia. rewrite (r_cells _ _ _ R) by lia. now rewrite Hn.
Qed.

Lemma get_ok m l key : mrep m l -> m_get cmp m key = Ret m (lookup eqk key l).
Proof.
  intros (E & T & R & ->). unfold m_get.
  destruct (search_ok m T (r_sorted _ _ _ R) (r_cells _ _ _ R) key (r_count _ _ _ R)) as (r & Hs & [[-> Hn]|[Hr (n & Hn)]]);
    rewrite Hs.
  - simpl. rewrite lookup_notin; auto. eapply absent_entry; eauto.
  - destruct (Z.eqb_spec r (-1)); [lia|].
    rewrite (rd_table m E T r key n); auto.
    destruct (find_entry m E T _ key n R Hn) as (E1 & E2 & w & ->).
    destruct (r_fields _ _ _ R (key, w, n)) as (_ & Hv); [rewrite in_app_iff; simpl; auto|].
    simpl in Hv. rewrite Hv. erewrite lookup_in; [reflexivity|apply R|rewrite in_app_iff; simpl; eauto].
Qed.

Lemma exist_ok m l key : mrep m l -> m_exist cmp m key = Ret m (present eqk key l).
Proof.
  intros (E & T & R & ->). unfold m_exist, present.
  destruct (search_ok m T (r_sorted _ _ _ R) (r_cells _ _ _ R) key (r_count _ _ _ R)) as (r & Hs & [[-> Hn]|[Hr (n & Hn)]]);
    rewrite Hs.
  - simpl. rewrite lookup_notin; auto. eapply absent_entry; eauto.
  - destruct (Z.eqb_spec r (-1)); [lia|].
    destruct (find_entry m E T _ key n R Hn) as (E1 & E2 & w & ->).
    erewrite lookup_in; [reflexivity|apply R|rewrite in_app_iff; simpl; eauto].
Qed.

Lemma set_ok m l key v : mrep m l -> Z.of_nat (length (put eqk key v l)) <= cap ->
  exists m', m_set cmp SLOT wrap m key v = Ret m' tt /\ mrep m' (put eqk key v l).
Proof.
  intros (E & T & R & ->) Hcap. unfold m_set.
  destruct (search_ok m T (r_sorted _ _ _ R) (r_cells _ _ _ R) key (r_count _ _ _ R)) as (r & Hs & [[-> Hn]|[Hr (n & Hn)]]);
    rewrite Hs.
  - (* new key *)
    cbn [Z.eqb Pos.eqb]. pose proof (absent_entry _ _ _ _ R Hn) as Habs.
    rewrite put_notin in * by auto. rewrite app_length, map_length in Hcap. simpl in Hcap.
    pose proof (rep_len _ _ _ R) as HlenT.
    assert (Hfresh : ~ In (brk m) (List.map e_id E)).
    { intros Hin. apply in_map_iff in Hin. destruct Hin as (e & He & Hin).
      apply (r_brk _ _ _ R) in Hin. lia. }
    destruct (ring_insert_ok (ring_of m) _ (brk m) (r_inv _ _ _ R) Hfresh) as (rg & Er & Ir & _).
    rewrite Er. unfold newSlot.
    assert (Hkk : forall mm : map K V, tbl mm = tbl m -> forall i, key_at mm i = key_at m i).
    { intros mm Ht i. unfold key_at. now rewrite Ht. }
    set (m1 := mkmap (tbl m) (mcount m) rg (nkey m) (nval m) (S (brk m))).
    destruct (slot_pos_ok m1 T (r_sorted _ _ _ R) (r_cells _ _ _ R) key (r_count _ _ _ R) Hn) as (p & Hp & Hpr & Hlt & Hgt).
    rewrite Hp.
    destruct (m_pushSlot_ok m1 (length T) (r_count _ _ _ R) (r_room _ _ _ R)) as (t & Hps & Hsz & Hroom & Hold); [lia|apply R|].
    rewrite Hps. cbn [bind mcount tbl ring_of nkey nval brk].
    destruct (for_down_shift (Z.to_nat (Z.of_nat (length T) + 1 - 1 - p)) (Z.of_nat (length T) + 1 - 1) t)
      as (t2 & Ht2 & Lt2 & Nt2); try lia.
    rewrite Ht2. cbn [bind mcount tbl ring_of nkey nval brk].
    rewrite wr_some by lia.
    eexists. split; [reflexivity|].
    exists (E ++ [(key, v, brk m) : entry]), (firstn (Z.to_nat p) T ++ (key, brk m) :: skipn (Z.to_nat p) T).
    split; [|rewrite map_app; reflexivity].
    constructor; cbn [ring_of mcount tbl nkey nval brk].
    + rewrite map_app. exact Ir.
    + intros e He. rewrite in_app_iff in He. destruct He as [He|[<-|[]]].
      * pose proof (r_brk _ _ _ R e He). rewrite !fupd_ne by lia. now apply (r_fields _ _ _ R).
      * simpl. rewrite !fupd_eq. auto.
    + rewrite map_app. simpl. apply NoDup_Add with (a := key) (l := List.map (fun e : entry => fst (fst e)) E).
      * rewrite <- (app_nil_r (List.map _ E)) at 1. apply Add_app.
      * split; [apply R|]. intros Hin. apply in_map_iff in Hin. destruct Hin as ([[k w] q] & He & Hin).
        simpl in He. subst. apply (Habs w q Hin).
    + rewrite map_app. simpl. rewrite <- Permutation_middle, firstn_skipn.
      rewrite Permutation_app_comm. simpl. constructor. apply R.
    + apply ss_app_insert; auto. rewrite firstn_skipn. apply R.
    + rewrite app_length. simpl. rewrite firstn_length, skipn_length. lia.
    + rewrite upd_length, Lt2, app_length. simpl. rewrite firstn_length, skipn_length. lia.
    + intros i Hi. rewrite app_length in Hi. simpl in Hi. rewrite firstn_length, skipn_length in Hi.
      rewrite nth_error_app, firstn_length, nth_error_firstn. rewrite Nat.min_l by lia.
      destruct (Nat.ltb_spec i (Z.to_nat p)).
      * rewrite nth_error_upd_ne by lia. rewrite Nt2.
        destruct (Z.ltb_spec (Z.of_nat (length T) + 1 - 1 - Z.of_nat (Z.to_nat (Z.of_nat (length T) + 1 - 1 - p))) (Z.of_nat i)); [lia|].
        cbn [andb]. rewrite Hold by lia. now rewrite (r_cells _ _ _ R) by lia.
      * destruct (Nat.eq_dec i (Z.to_nat p)) as [->|Ne].
        { rewrite nth_error_upd_eq by lia. now rewrite Nat.sub_diag. }
        { rewrite nth_error_upd_ne by lia. rewrite Nt2.
          destruct (Z.ltb_spec (Z.of_nat (length T) + 1 - 1 - Z.of_nat (Z.to_nat (Z.of_nat (length T) + 1 - 1 - p))) (Z.of_nat i)); [|lia].
          destruct (Z.leb_spec (Z.of_nat i) (Z.of_nat (length T) + 1 - 1)); [|lia]. cbn [andb].
          rewrite Hold by lia. rewrite (r_cells _ _ _ R) by lia.
          replace (i - Z.to_nat p)%nat with (S (i - Z.to_nat p - 1)) by lia. cbn [nth_error].
          rewrite nth_error_skipn. do 2 f_equal. lia. }
    + intros e He. rewrite in_app_iff in He. destruct He as [He|[<-|[]]].
      * pose proof (r_brk _ _ _ R e He). unfold m1. cbn [brk]. lia.
      * simpl. lia.
    + intros q Hq. unfold m1 in *. cbn [brk nkey] in *. rewrite fupd_ne by lia. apply (r_fresh _ _ _ R). lia.
    + rewrite upd_length, Lt2. exact Hsz.
  - (* overwrite *)
    destruct (Z.eqb_spec r (-1)); [lia|].
    rewrite (rd_table m E T r key n); auto.
    eexists. split; [reflexivity|].
    destruct (find_entry m E T _ key n R Hn) as (E1 & E2 & w & HE). subst E.
    destruct (keys_unique _ _ _ _ _ (r_keys _ _ _ R)) as [U1 U2].
    rewrite put_split by auto.
    exists (E1 ++ (key, v, n) :: E2), T. split; auto.
    pose proof (r_inv _ _ _ R) as HI. rewrite map_app in HI. cbn [List.map] in HI.
    assert (Hnd : ~ In n (List.map e_id E1 ++ List.map e_id E2)).
    { apply NoDup_remove_2. exact (inv_nodup _ _ HI). }
    constructor; cbn [ring_of mcount tbl nkey nval brk].
    + rewrite map_app. exact HI.
    + intros e He. rewrite in_app_iff in He. simpl in He.
      destruct He as [He|[<-|He]].
      * rewrite fupd_ne; [apply (r_fields _ _ _ R); rewrite in_app_iff; auto|].
        intros <-. apply Hnd. rewrite in_app_iff. left. now apply in_map.
      * simpl. rewrite fupd_eq. split; auto. destruct (r_fields _ _ _ R (key, w, n)); auto.
        rewrite in_app_iff; simpl; auto.
      * rewrite fupd_ne; [apply (r_fields _ _ _ R); rewrite in_app_iff; simpl; auto|].
        intros <-. apply Hnd. rewrite in_app_iff. right. now apply in_map.
    + pose proof (r_keys _ _ _ R) as Hk. rewrite map_app in *. exact Hk.
    + pose proof (r_perm _ _ _ R) as Hk. rewrite map_app in *. exact Hk.
    + apply R.
    + apply R.
    + apply R.
    + apply R.
    + intros e He. rewrite in_app_iff in He. simpl in He. destruct He as [He|[<-|He]].
      * apply (r_brk _ _ _ R); rewrite in_app_iff; auto.
      * apply (r_brk _ _ _ R (key, w, n)); rewrite in_app_iff; simpl; auto.
      * apply (r_brk _ _ _ R); rewrite in_app_iff; simpl; auto.
    + apply R.
    + apply R.
Qed.

Lemma nth_error_split' {A} (l : list A) n a : nth_error l n = Some a ->
  l = firstn n l ++ a :: skipn (S n) l.
Proof.
  revert n; induction l as [|x l IH]; intros [|n] H; simpl in *; try discriminate.
  - inversion H; subst. reflexivity.
  - f_equal. now apply IH.
Qed.

Lemma erase_ok m l key : mrep m l -> Z.of_nat (length l) <= cap ->
  if present eqk key l then
    exists m', m_erase cmp wrap m key = Ret m' tt /\ mrep m' (del eqk key l)
  else m_erase cmp wrap m key = Exc m.
Proof.
  intros (E & T & R & ->) Hcap. unfold m_erase, present. rewrite map_length in Hcap.
  destruct (search_ok m T (r_sorted _ _ _ R) (r_cells _ _ _ R) key (r_count _ _ _ R)) as (r & Hs & [[-> Hn]|[Hr (n & Hn)]]);
    rewrite Hs.
  - rewrite lookup_notin; auto. eapply absent_entry; eauto.
  - destruct (Z.eqb_spec r (-1)); [lia|].
    destruct (find_entry m E T _ key n R Hn) as (E1 & E2 & w & HE). subst E.
    erewrite lookup_in; [|apply R|rewrite in_app_iff; simpl; eauto].
    destruct (keys_unique _ _ _ _ _ (r_keys _ _ _ R)) as [U1 U2].
    rewrite del_split by auto.
    unfold erase_idx. rewrite (rd_table m (E1 ++ (key, w, n) :: E2) T r key n); auto.
    pose proof (r_inv _ _ _ R) as HI. rewrite map_app in HI. cbn [List.map] in HI.
    destruct (ring_remove_ok true (ring_of m) _ _ _ HI) as (rg & Er & Ir & _). change (e_id (key, w, n)) with n in *.
    rewrite Er. pose proof (r_room _ _ _ R) as Hroom. pose proof (r_count _ _ _ R) as Hcnt.
    pose proof (rep_len _ _ _ R) as HlenT.
    destruct (for_up_shift (Z.to_nat (mcount m - 1 - r)) r (tbl m)) as (t & Et & Lt & Nt); try lia.
    rewrite Et. rewrite wr_some by lia.
    rewrite wrap_ok by lia.
    eexists. split; [reflexivity|].
    pose proof (nth_error_split' _ _ _ Hn) as HT.
    set (T1 := firstn (Z.to_nat r) T) in *. set (T2 := skipn (S (Z.to_nat r)) T) in *.
    exists (E1 ++ E2), (T1 ++ T2). split; auto.
    assert (Hnd : ~ In n (List.map e_id E1 ++ List.map e_id E2)).
    { apply NoDup_remove_2. exact (inv_nodup _ _ HI). }
    assert (HlT : (length (T1 ++ T2) = length T - 1)%nat).
    { rewrite HT, !app_length. simpl. lia. }
    assert (Hl1 : length T1 = Z.to_nat r) by (unfold T1; rewrite firstn_length; lia).
    constructor; cbn [ring_of mcount tbl nkey nval brk].
    + rewrite map_app. exact Ir.
    + intros e He. assert (e_id e <> n).
      { intros <-. apply Hnd. rewrite <- map_app. now apply in_map. }
      rewrite !fupd_ne by auto. apply (r_fields _ _ _ R). rewrite in_app_iff in *. simpl. tauto.
    + pose proof (r_keys _ _ _ R) as Hk. rewrite map_app in *. cbn [List.map] in Hk.
      now apply NoDup_remove_1 in Hk.
    + pose proof (r_perm _ _ _ R) as Hk. rewrite HT in Hk. rewrite map_app in *. cbn [List.map] in Hk.
      apply Permutation_app_inv in Hk. exact Hk.
    + apply ss_app_remove with (key, n). rewrite <- HT. apply R.
    + rewrite HlT. lia.
    + rewrite upd_length, Lt, HlT. lia.
    + intros i Hi. rewrite nth_error_upd_ne by lia. rewrite Nt.
      rewrite nth_error_app, Hl1.
      destruct (Nat.ltb_spec i (Z.to_nat r)).
      * destruct (Z.leb_spec r (Z.of_nat i)); [lia|]. cbn [andb].
        rewrite (r_cells _ _ _ R) by lia. unfold T1. rewrite nth_error_firstn.
        destruct (Nat.ltb_spec i (Z.to_nat r)); [reflexivity|lia].
      * destruct (Z.leb_spec r (Z.of_nat i)); [|lia].
        destruct (Z.ltb_spec (Z.of_nat i) (r + Z.of_nat (Z.to_nat (mcount m - 1 - r)))); [|lia]. cbn [andb].
        rewrite (r_cells _ _ _ R) by lia. unfold T2. rewrite nth_error_skipn. do 2 f_equal. lia.
    + intros e He. apply (r_brk _ _ _ R). rewrite in_app_iff in *. simpl. tauto.
    + intros q Hq. destruct (Nat.eq_dec q n) as [->|Ne]; [apply fupd_eq|].
      rewrite fupd_ne by auto. now apply (r_fresh _ _ _ R).
    + rewrite upd_length, Lt. apply R.
Qed.

(** The node of an erased entry is no longer linked. *)
Lemma nodup_fst_in (l : list entry) a b : NoDup (List.map (fun e : entry => fst (fst e)) l) -> In a l -> In b l ->
  fst (fst a) = fst (fst b) -> a = b.
Proof.
  induction l as [|x l IH]; cbn [List.map In]; intros H Ha Hb E; [tauto|]. inversion H; subst.
  destruct Ha as [->|Ha], Hb as [->|Hb]; auto; exfalso; apply H2.
  - rewrite E. apply (in_map (fun e : entry => fst (fst e))). exact Hb.
  - rewrite <- E. apply (in_map (fun e : entry => fst (fst e))). exact Ha.
Qed.
Lemma erase_frees m E T e m' : rep m E T -> In e E -> m_erase cmp wrap m (fst (fst e)) = Ret m' tt ->
  next (heap (ring_of m')) (e_id e) = None.
Proof.
  intros R He H. unfold m_erase in H.
  destruct (search_ok m T (r_sorted _ _ _ R) (r_cells _ _ _ R) (fst (fst e)) (r_count _ _ _ R)) as (r & Hs & [[-> Hn]|[Hr (n & Hn)]]);
    rewrite Hs in H; [discriminate|].
  destruct (Z.eqb_spec r (-1)); [lia|].
  destruct (find_entry m E T _ (fst (fst e)) n R Hn) as (E1 & E2 & w & HE).
  assert (Hen : e = (fst (fst e), w, n)).
  { apply (nodup_fst_in E); [apply R | exact He | rewrite HE, in_app_iff; right; left; reflexivity | reflexivity]. }
  unfold erase_idx in H. rewrite (rd_table m E T r (fst (fst e)) n) in H; auto.
  pose proof (r_inv _ _ _ R) as HI. rewrite HE, map_app in HI. cbn [List.map] in HI.
  destruct (ring_remove_ok true (ring_of m) _ _ _ HI) as (rg & Er & _ & (_ & D) & _).
  change (e_id (fst (fst e), w, n)) with n in *. rewrite Er in H.
  destruct (for_up _ _ _ _); [|discriminate]. destruct (wr _ _ _); inversion H; subst. cbn [ring_of].
  rewrite Hen. exact D.
Qed.

Lemma iter_chain (m : map K V) f : first (ring_of m) = Some f -> forall (E : list entry) e,
  ~ In f (List.map e_id E) ->
  (forall x, In x (e :: E) -> nkey m (e_id x) = Some (fst (fst x)) /\ nval m (e_id x) = Some (snd (fst x))) ->
  chain (heap (ring_of m)) (e_id e :: List.map e_id E ++ [f]) ->
  forall fuel, (length E < fuel)%nat ->
  iter_loop fuel m (e_id e) = Some (List.map e_kv (e :: E)).
Proof.
  intros Hf. induction E as [|e' E IH]; intros e Hs HF Hc fuel Hfu;
    (destruct fuel as [|fuel]; [simpl in Hfu; lia|]); cbn [iter_loop];
    destruct (HF e) as (Hk & Hv); try (simpl; auto; fail); rewrite Hk, Hv.
  - simpl in Hc. destruct Hc as (Hc & _). rewrite Hc. unfold eqo. rewrite Hf, Nat.eqb_refl.
    destruct e as [[? ?] ?]. reflexivity.
  - cbn [List.map app] in Hc. apply chain_cons2 in Hc. destruct Hc as (H1 & H2 & H3).
    rewrite H1. unfold eqo. rewrite Hf. destruct (Nat.eqb_spec f (e_id e')) as [->|_].
    + exfalso; apply Hs; simpl; auto.
    + rewrite IH; auto.
      * destruct e as [[? ?] ?]. reflexivity.
      * simpl in Hs. tauto.
      * intros x Hx. apply HF. simpl in *. tauto.
      * simpl in Hfu. lia.
Qed.

Lemma iter_phantom (m : map K V) f ph : nkey m ph = None -> ph <> f -> first (ring_of m) = Some f ->
  forall (E : list entry) e rest,
  ~ In f (List.map e_id E) ->
  chain (heap (ring_of m)) (e_id e :: List.map e_id E ++ ph :: rest) ->
  forall fuel, iter_loop fuel m (e_id e) = None.
Proof.
  intros Hph Hne Hf. induction E as [|e' E IH]; intros e rest Hs Hc fuel;
    (destruct fuel as [|fuel]; [reflexivity|]); cbn [iter_loop];
    (destruct (nkey m (e_id e)); [|reflexivity]); (destruct (nval m (e_id e)); [|reflexivity]).
  - simpl in Hc. destruct Hc as (Hc & _). rewrite Hc. unfold eqo. rewrite Hf.
    destruct (Nat.eqb_spec f ph); [congruence|]. destruct fuel; simpl; auto. now rewrite Hph.
  - cbn [List.map app] in Hc. apply chain_cons2 in Hc. destruct Hc as (H1 & H2 & H3).
    rewrite H1. unfold eqo. rewrite Hf. destruct (Nat.eqb_spec f (e_id e')) as [->|_].
    + exfalso; apply Hs; simpl; auto.
    + rewrite (IH e' rest); auto. simpl in Hs. tauto.
Qed.

Lemma nodup_bound (l : list nat) n : NoDup l -> (forall x, In x l -> (x < n)%nat) -> (length l <= n)%nat.
Proof.
  intros Hnd H. rewrite <- (seq_length n 0). apply NoDup_incl_length; auto.
  intros x Hx. apply in_seq. apply H in Hx. lia.
Qed.

Lemma iterate_ok m l : mrep m l -> m_iterate m = Ret m l.
Proof.
  intros (E & T & R & ->). unfold m_iterate. pose proof (r_inv _ _ _ R) as HI.
  rewrite (inv_first _ _ HI). destruct E as [|e E]; [reflexivity|].
  cbn [List.map hd_error].
  rewrite (iter_chain m (e_id e)) with (E := E); auto.
  - rewrite (inv_first _ _ HI). reflexivity.
  - pose proof (inv_nodup _ _ HI) as Hnd. now inversion Hnd.
  - intros x Hx. now apply (r_fields _ _ _ R).
  - exact (inv_ring _ _ HI).
  - pose proof (nodup_bound (List.map e_id (e :: E)) (brk m) (inv_nodup _ _ HI)) as Hb.
    rewrite map_length in Hb. simpl in Hb. 
    assert (S (length E) <= brk m)%nat; [|lia]. apply Hb.
    intros x Hx. change (In x (List.map e_id (e :: E))) in Hx.
    apply in_map_iff in Hx. destruct Hx as (y & <- & Hy). now apply (r_brk _ _ _ R).
Qed.

Lemma count_ok m l : mrep m l -> m_count m = Z.of_nat (length l).
Proof.
  intros (E & T & R & ->). unfold m_count. rewrite (r_count _ _ _ R), (rep_len _ _ _ R), map_length. reflexivity.
Qed.

Lemma rep_empty_gen b : mrep (mkmap [] 0 cl_empty (fun _ => None) (fun _ => None) b) [].
Proof.
  exists [], []. split; auto. constructor; simpl; auto; try tauto; try (intros; lia).
  - apply inv_empty.
  - constructor.
  - constructor.
  - split; simpl; [apply Zmod_0_l|lia].
Qed.

Lemma mstep_ok o m l : mrep m l -> Z.of_nat (length l) <= cap ->
  Z.of_nat (length (fst (spec_step eqk o l))) <= cap ->
  exists m', mstep cmp SLOT wrap o m = Some (m', snd (spec_step eqk o l)) /\ mrep m' (fst (spec_step eqk o l)).
Proof.
  intros R Hc0 Hc. destruct o as [k v|k|k|k| | |]; unfold mstep; cbn [spec_step fst snd] in *.
  - destruct (set_ok m l k v R Hc) as (m' & E & R'). rewrite E. eauto.
  - rewrite (get_ok m l k R). eauto.
  - rewrite (exist_ok m l k R). eauto.
  - pose proof (erase_ok m l k R Hc0) as H. destruct (present eqk k l).
    + destruct H as (m' & E & R'). rewrite E. eauto.
    + rewrite H. eauto.
  - rewrite (count_ok m l R). eauto.
  - rewrite (iterate_ok m l R). eauto.
  - eexists. split; [reflexivity|]. apply rep_empty_gen.
Qed.

Lemma mrun_ok os : forall m l l' xs, mrep m l -> Z.of_nat (length l) <= cap ->
  spec_run eqk cap os l = Some (l', xs) ->
  exists m', mrun cmp SLOT wrap os m = Some (m', xs) /\ mrep m' l'.
Proof.
  induction os as [|o os IH]; intros m l l' xs R Hc H.
  - simpl in *. inversion H; subst. eauto.
  - cbn [spec_run] in H. destruct (spec_step eqk o l) as [l1 x] eqn:E1.
    destruct (Z.leb_spec (Z.of_nat (length l1)) cap); [|discriminate].
    destruct (spec_run eqk cap os l1) as [[l2 ys]|] eqn:E2; [|discriminate]. inversion H; subst.
    destruct (mstep_ok o m l R Hc) as (m1 & Es & R1); [now rewrite E1|]. rewrite E1 in *. simpl in *.
    destruct (IH m1 l1 l' ys R1 H0 E2) as (m2 & Er & R2).
    exists m2. rewrite Es, Er. auto.
Qed.

Lemma mrep_empty : mrep m_empty [].
Proof. apply (rep_empty_gen 0). Qed.

(** *** a map at the growth limit *)
Lemma set_full_throws m l key v :
  mrep m l -> present eqk key l = false -> Z.of_nat (length l) = msize m -> MAX_ITEMS <= msize m + SLOT ->
  0 < msize m ->
  exists m', m_set cmp SLOT wrap m key v = Exc m' /\ m_iterate m' = Undef /\ m_count m' = m_count m
    /\ (exists p, last (ring_of m') = Some p /\ nkey m' p = None).
Proof.
  intros (E & T & R & ->) Hp Hfull Hmax Hpos.
  assert (Hnew : forall v n, ~ In (key, v, n) E).
  { intros w n Hin. unfold present in Hp. erewrite lookup_in in Hp; eauto; [discriminate|apply R]. }
  unfold m_set.
  destruct (search_ok m T (r_sorted _ _ _ R) (r_cells _ _ _ R) key (r_count _ _ _ R)) as (r & Hs & [[-> Hn]|[Hr (n & Hn)]]).
  2:{ exfalso. destruct (find_entry m E T _ key n R Hn) as (E1 & E2 & w & ->).
      apply (Hnew w n). rewrite in_app_iff; simpl; auto. }
  rewrite Hs. cbn [Z.eqb Pos.eqb].
  assert (Hfresh : ~ In (brk m) (List.map e_id E)).
  { intros Hin. apply in_map_iff in Hin. destruct Hin as (e & He & Hin).
    apply (r_brk _ _ _ R) in Hin. lia. }
  assert (HEne : E <> []). { intros ->. rewrite map_length in Hfull. simpl in Hfull. lia. }
  pose proof (rep_len _ _ _ R) as HlenT.
  destruct (ring_insert_ok (ring_of m) _ (brk m) (r_inv _ _ _ R) Hfresh) as (rg & Er & Ir & _).
  rewrite Er. unfold newSlot.
  set (m1 := mkmap (tbl m) (mcount m) rg (nkey m) (nval m) (S (brk m))).
  destruct (slot_pos_ok m1 T (r_sorted _ _ _ R) (r_cells _ _ _ R) key (r_count _ _ _ R) Hn) as (p & Hpp & _).
  rewrite Hpp.
  exists m1.
  assert (Hps : m_pushSlot SLOT wrap m1 = Exc m1).
  { unfold m_pushSlot, m1, msize in *. cbn [tbl mcount ring_of nkey nval brk].
    rewrite map_length in Hfull. rewrite (r_count _ _ _ R), HlenT, Hfull.
    destruct (Z.eqb_spec (Z.of_nat (length (tbl m))) 0); [lia|].
    rewrite Z.eqb_refl. destruct (Z.leb_spec MAX_ITEMS (Z.of_nat (length (tbl m)) + SLOT)); [|lia].
    reflexivity. }
  rewrite Hps. cbn [bind].
  split; [reflexivity|]. split; [|split; [reflexivity|]].
  - unfold m_iterate, m1. cbn [ring_of brk].
    rewrite (inv_first _ _ Ir).
    destruct E as [|e0 E0] eqn:EE; [congruence|]. cbn [List.map app hd_error].
    rewrite (iter_phantom _ (e_id e0) (brk m)) with (E := E0) (rest := [e_id e0]); auto.
    + apply (r_fresh _ _ _ R). lia.
    + intros Heq. apply Hfresh. rewrite Heq. simpl. auto.
    + cbn [ring_of]. now rewrite (inv_first _ _ Ir).
    + pose proof (inv_nodup _ _ (r_inv _ _ _ R)) as Hnd. now inversion Hnd.
    + pose proof (inv_ring _ _ Ir) as Hc. cbn [List.map app] in Hc. unfold ring in Hc.
      rewrite <- app_assoc in Hc. exact Hc.
  - exists (brk m). unfold m1. cbn [ring_of nkey]. rewrite (inv_last _ _ Ir). split; [apply lastof_app|].
    apply (r_fresh _ _ _ R). lia.
Qed.

(** *** a map whose counter wraps *)
Lemma set_wrap_loses m l key v :
  mrep m l -> present eqk key l = false -> wrap (Z.of_nat (length l) + 1) = 0 ->
  Z.of_nat (length l) + SLOT < MAX_ITEMS ->
  exists m', m_set cmp SLOT wrap m key v = Ret m' tt /\ m_count m' = 0
    /\ (forall k, m_get cmp m' k = Ret m' None).
Proof.
  intros (E & T & R & ->) Hp Hw Hmax. rewrite map_length in *.
  assert (Hnew : forall v n, ~ In (key, v, n) E).
  { intros w n Hin. unfold present in Hp. erewrite lookup_in in Hp; eauto; [discriminate|apply R]. }
  unfold m_set.
  destruct (search_ok m T (r_sorted _ _ _ R) (r_cells _ _ _ R) key (r_count _ _ _ R)) as (r & Hs & [[-> Hn]|[Hr (n & Hn)]]).
  2:{ exfalso. destruct (find_entry m E T _ key n R Hn) as (E1 & E2 & w & ->).
      apply (Hnew w n). rewrite in_app_iff; simpl; auto. }
  rewrite Hs. cbn [Z.eqb Pos.eqb].
  assert (Hfresh : ~ In (brk m) (List.map e_id E)).
  { intros Hin. apply in_map_iff in Hin. destruct Hin as (e & He & Hin).
    apply (r_brk _ _ _ R) in Hin. lia. }
  pose proof (rep_len _ _ _ R) as HlenT.
  destruct (ring_insert_ok (ring_of m) _ (brk m) (r_inv _ _ _ R) Hfresh) as (rg & Er & Ir & _).
  rewrite Er. unfold newSlot.
  set (m1 := mkmap (tbl m) (mcount m) rg (nkey m) (nval m) (S (brk m))).
  destruct (slot_pos_ok m1 T (r_sorted _ _ _ R) (r_cells _ _ _ R) key (r_count _ _ _ R) Hn) as (p & Hpp & Hpr & _).
  rewrite Hpp.
  destruct (m_pushSlot_gen m1 (length T) (r_count _ _ _ R) (r_room _ _ _ R)) as (t & Hps & _ & Hroom & _); [lia|apply R|].
  rewrite Hps. rewrite HlenT, Hw. cbn [bind mcount tbl ring_of nkey nval brk].
  replace (Z.to_nat (0 - 1 - p)) with 0%nat by lia. cbn [for_down bind mcount tbl ring_of nkey nval brk].
  rewrite wr_some by lia.
  eexists. split; [reflexivity|]. split; [reflexivity|]. intros k. reflexivity.
Qed.

Lemma full_size m l : mrep m l -> Z.of_nat (length l) = MAX_ITEMS - SLOT -> MAX_ITEMS mod SLOT = 0 ->
  msize m = Z.of_nat (length l).
Proof.
  intros (E & T & R & ->) Hl Hm. rewrite map_length in *.
  pose proof (r_room _ _ _ R). pose proof (rep_len _ _ _ R). destruct (r_size _ _ _ R) as [H1 H2].
  unfold msize in *. rewrite Hl.
  assert (Hge : MAX_ITEMS - SLOT <= Z.of_nat (length (tbl m))) by lia.
  apply Z_div_exact_full_2 in H1; [|lia]. apply Z_div_exact_full_2 in Hm; [|lia].
  set (a := MAX_ITEMS / SLOT) in *. set (b := Z.of_nat (length (tbl m)) / SLOT) in *.
  assert (b < a) by nia. assert (a - 1 <= b) by nia. assert (b = a - 1) by lia. nia.
Qed.

Lemma run_rep os l xs : spec_run eqk cap os [] = Some (l, xs) ->
  exists m, mrun cmp SLOT wrap os m_empty = Some (m, xs) /\ mrep m l.
Proof. intros H. eapply mrun_ok; eauto using mrep_empty. simpl. lia. Qed.

(** Setting [n] different keys. *)
Lemma fill_ok (f : nat -> K) (v : V) : (forall i j, f i = f j -> i = j) -> forall n, Z.of_nat n <= cap ->
  exists l xs, spec_run eqk cap (List.map (fun i => MSet (f i) v) (List.seq 0 n)) [] = Some (l, xs) /\
    length l = n /\ forall i, present eqk (f i) l = Nat.ltb i n.
Proof.
  intros Hinj.
  assert (Hput : forall k (w : V) (l : list (K * V)), present eqk k l = false -> put eqk k w l = l ++ [(k, w)]).
  { intros k w l. unfold present. induction l as [|[k' w'] l IH]; simpl; auto.
    destruct (eqk k' k); [discriminate|]. intros H. now rewrite IH. }
  assert (Hl : forall k l k' (w : V), present eqk k (l ++ [(k', w)]) = present eqk k l || eqk k' k).
  { intros k l k' w. unfold present. induction l as [|[k2 w2] l IH]; simpl.
    - destruct (eqk k' k); auto.
    - destruct (eqk k2 k); auto. }
  assert (G : forall n s l, Z.of_nat (length l + n) <= cap ->
     (forall i, present eqk (f i) l = Nat.ltb i s) ->
     exists l' xs, spec_run eqk cap (List.map (fun i => MSet (f i) v) (List.seq s n)) l = Some (l', xs) /\
       length l' = (length l + n)%nat /\ forall i, present eqk (f i) l' = Nat.ltb i (s + n)).
  { induction n as [|n IH]; intros s l Hc Hp.
    - exists l, []. simpl. repeat split; try lia. intros i. now rewrite Nat.add_0_r.
    - cbn [List.seq List.map spec_run spec_step]. rewrite Hput by (rewrite Hp; apply Nat.ltb_irrefl).
      rewrite app_length. cbn [length]. destruct (Z.leb_spec (Z.of_nat (length l + 1)) cap); [|lia].
      destruct (IH (S s) (l ++ [(f s, v)])) as (l' & xs & H1 & H2 & H3).
      + rewrite app_length. simpl. lia.
      + intros i. rewrite Hl, Hp. destruct (Nat.ltb_spec i s), (Nat.ltb_spec i (S s)); try lia; simpl; auto.
        * assert (i = s) by lia. subst. now apply eqk_eq.
        * destruct (eqk (f s) (f i)) eqn:Ee; auto. apply eqk_eq in Ee. apply Hinj in Ee. lia.
      + rewrite H1. exists l', (ODone :: xs). split; auto. split.
        * rewrite H2, app_length. simpl. lia.
        * intros i. rewrite H3. f_equal. lia. }
  intros n Hc. destruct (G n 0%nat []) as (l & xs & H1 & H2 & H3); auto.
  exists l, xs. auto.
Qed.

End Proofs.
