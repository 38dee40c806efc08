From Coq Require Import List ZArith Bool Lia.
From Verif Require Import Base FloatModel StringModel IntegerModel JsonModel JsonSpec.
Import ListNotations.
Open Scope Z_scope.

(** ** Suffixes *)
Lemma suf_refl a : suf a a.
Proof. exists []. reflexivity. Qed.
Lemma suf_trans a b c : suf a b -> suf b c -> suf a c.
Proof. intros [p ->] [q ->]. exists (q ++ p). now rewrite app_assoc. Qed.
Lemma suf_cons x a : suf a (x :: a).
Proof. exists [x]. reflexivity. Qed.
Lemma suf_cons' x a b : suf a b -> suf a (x :: b).
Proof. intros [p ->]. exists (x :: p). reflexivity. Qed.
Lemma suf_nil a : suf [] a.
Proof. exists a. now rewrite app_nil_r. Qed.
Lemma suf_tl a : suf (tl a) a.
Proof. destruct a; [apply suf_refl|apply suf_cons]. Qed.
Lemma suf_len a b : suf a b -> (length a <= length b)%nat.
Proof. intros [p ->]. rewrite app_length. lia. Qed.
Lemma suf_skipn n a : suf (skipn n a) a.
Proof. exists (firstn n a). symmetry. apply firstn_skipn. Qed.
Lemma suf_inv_cons a x b : suf a (x :: b) -> a = x :: b \/ suf a b.
Proof.
  intros [[|y p] E]; cbn in E.
  - left. auto.
  - right. injection E as -> ->. now exists p.
Qed.
Lemma suf_cons_inv x a b : suf (x :: a) b -> suf a b.
Proof. intros H. eapply suf_trans; [apply suf_cons|exact H]. Qed.
#[export] Hint Resolve suf_refl suf_cons suf_cons' suf_nil suf_tl suf_skipn : suf.

(** ** The end mark of a comment *)
Definition has (s : list Z) : Prop := exists a b, s = a ++ 42 :: 47 :: b.
Lemma has_nil : ~ has [].
Proof. intros ([|x a] & b & E); discriminate. Qed.
Lemma is_end_spec s : is_end s = true <-> exists b, s = 42 :: 47 :: b.
Proof.
  unfold is_end. split.
  - destruct s as [|x [|y s]]; cbn; try discriminate.
    + destruct (Z.eqb_spec x 42); cbn; discriminate.
    + intros H. apply andb_true_iff in H as [H1 H2]. apply Z.eqb_eq in H1, H2. subst. eauto.
  - intros [b ->]. reflexivity.
Qed.
Lemma is_start_spec s : is_start s = true <-> exists b, s = 47 :: 42 :: b.
Proof.
  unfold is_start. split.
  - destruct s as [|x [|y s]]; cbn; try discriminate.
    + destruct (Z.eqb_spec x 47); cbn; discriminate.
    + intros H. apply andb_true_iff in H as [H1 H2]. apply Z.eqb_eq in H1, H2. subst. eauto.
  - intros [b ->]. reflexivity.
Qed.
Lemma is_single_spec s : is_single s = true <-> exists b, s = 47 :: 47 :: b.
Proof.
  unfold is_single. split.
  - destruct s as [|x [|y s]]; cbn; try discriminate.
    + destruct (Z.eqb_spec x 47); cbn; discriminate.
    + intros H. apply andb_true_iff in H as [H1 H2]. apply Z.eqb_eq in H1, H2. subst. eauto.
  - intros [b ->]. reflexivity.
Qed.
Lemma has_cons x s : has (x :: s) -> is_end (x :: s) = true \/ has s.
Proof.
  intros ([|y a] & b & E); cbn in E.
  - left. apply is_end_spec. exists b. auto.
  - right. injection E as -> ->. exists a, b. reflexivity.
Qed.
Lemma has_ncons x s : x <> 42 -> has (x :: s) -> has s.
Proof. intros Hx H. apply has_cons in H as [H|H]; auto. apply is_end_spec in H as [b E]. congruence. Qed.

Lemma adv_char_suf c s : suf (adv_char c s) s.
Proof.
  induction s as [|x s IH]; cbn; auto with suf.
  destruct (x =? 10); auto with suf. destruct (x =? 13); auto with suf. destruct (x =? c); auto with suf.
Qed.
Lemma adv_char_has s : has s -> has (adv_char 42 s).
Proof.
  induction s as [|x s IH]; intros H; cbn [adv_char]; auto.
  destruct (Z.eqb_spec x 10); auto.
  destruct (Z.eqb_spec x 13) as [->|]; [apply (has_ncons 13); auto; lia|].
  destruct (Z.eqb_spec x 42); auto.
  apply IH. eapply has_ncons; eauto.
Qed.
Lemma skip1_suf c s : suf (skip1 c s) s.
Proof. destruct s as [|x s]; cbn; auto with suf. destruct (x =? c); auto with suf. Qed.
Lemma skip1_has c s : c <> 42 -> has s -> has (skip1 c s).
Proof.
  intros Hc H. destruct s as [|x s]; cbn; auto. destruct (Z.eqb_spec x c) as [->|]; auto. eapply has_ncons; eauto.
Qed.
Lemma skip1_eq c x s : x <> c -> skip1 c (x :: s) = x :: s.
Proof. intros H. cbn. destruct (Z.eqb_spec x c); [contradiction|reflexivity]. Qed.

(** One round of the loop moves on. *)
Lemma adv_char_stop c s : adv_char c s = [] \/ (exists r, adv_char c s = 10 :: r) \/
  (length (adv_char c s) < length s)%nat \/ (adv_char c s = s /\ hd 0 s = c).
Proof.
  destruct s as [|x s]; cbn [adv_char]; auto.
  destruct (Z.eqb_spec x 10) as [->|]; eauto.
  destruct (Z.eqb_spec x 13); [right; right; left; cbn; lia|].
  destruct (Z.eqb_spec x c) as [->|]; [right; right; right; auto|].
  right; right; left. pose proof (suf_len _ _ (adv_char_suf c s)). cbn. lia.
Qed.
Lemma round_less s x r : is_end s = false -> skip1 13 (skip1 10 (adv_char 42 s)) = x :: r ->
  (length (if (hd 0 r =? 47)%Z then x :: r else r) < length s)%nat.
Proof.
  intros He E.
  assert (L : (length (x :: r) <= length (adv_char 42 s))%nat).
  { rewrite <- E. apply suf_len. eapply suf_trans; apply skip1_suf. }
  pose proof (suf_len _ _ (adv_char_suf 42 s)) as L2.
  destruct (adv_char_stop 42 s) as [A|[[q A]|[A|[A B]]]].
  - rewrite A in E. discriminate.
  - rewrite A in E, L, L2. cbn [skip1] in E. rewrite Z.eqb_refl in E.
    pose proof (suf_len _ _ (skip1_suf 13 q)) as L3. rewrite E in L3. cbn in *. destruct (hd 0 r =? 47); cbn; lia.
  - cbn in L. destruct (hd 0 r =? 47); cbn; lia.
  - rewrite A in E. destruct s as [|y s]; [discriminate|]. cbn in B. subst y. rewrite skip1_eq in E by lia.
    rewrite skip1_eq in E by lia. injection E as <- <-. unfold is_end in He. cbn in He. rewrite He. cbn. lia.
Qed.

Lemma to_end_spec f : forall s, (length s < f)%nat ->
  (exists q, to_end f s = Ok q /\ suf q s /\ (has s -> is_end q = true)) \/ (to_end f s = UB /\ ~ has s).
Proof.
  induction f as [|f IH]; intros s Hf; [lia|]. cbn [to_end].
  destruct (is_end s) eqn:He; [left; exists s; auto with suf|].
  destruct s as [|y s]; [left; exists []; split; [reflexivity|split; [apply suf_refl|]]; intros H; destruct (has_nil H)|].
  pose proof (round_less (y :: s)) as RL.
  assert (HH : has (y :: s) -> has (skip1 13 (skip1 10 (adv_char 42 (y :: s))))).
  { intros H. apply skip1_has; [lia|]. apply skip1_has; [lia|]. now apply adv_char_has. }
  assert (SS : suf (skip1 13 (skip1 10 (adv_char 42 (y :: s)))) (y :: s)).
  { eapply suf_trans; [apply skip1_suf|]. eapply suf_trans; [apply skip1_suf|apply adv_char_suf]. }
  destruct (skip1 13 (skip1 10 (adv_char 42 (y :: s)))) as [|x r] eqn:E.
  - right. split; auto. intros H. exact (has_nil (HH H)).
  - specialize (RL x r He eq_refl).
    set (s' := if hd 0 r =? 47 then x :: r else r) in *.
    assert (S1 : suf s' (y :: s)).
    { unfold s'. destruct (hd 0 r =? 47); auto. eapply suf_trans; [apply suf_cons|exact SS]. }
    assert (H1 : has (y :: s) -> has s').
    { intros H. unfold s'. destruct (hd 0 r =? 47) eqn:H47; auto. apply HH in H. apply has_cons in H as [H|H]; auto.
      apply is_end_spec in H as [b Eb]. injection Eb as -> ->. discriminate. }
    destruct (IH s') as [(q & -> & Sq & Hq)|[-> Hq]]; [lia| |].
    + left. exists q. split; auto. split; [eapply suf_trans; eauto|auto].
    + right. split; auto.
Qed.

Lemma tl2_len (s : list Z) : (length (tl (tl s)) <= length s)%nat.
Proof. destruct s as [|x [|y s]]; cbn; lia. Qed.

(** A comment: skipped, and strictly; or not closed. *)
Lemma end_comment_spec u :
  (exists q, end_comment (47 :: 42 :: u) = Ok q /\ suf q u /\
     (has u -> exists q', suf q' u /\ q' = 42 :: 47 :: q)) \/
  (end_comment (47 :: 42 :: u) = UB /\ ~ has u).
Proof.
  unfold end_comment. cbn [tl length].
  destruct (to_end_spec (S (S (S (length u)))) u ltac:(lia)) as [(q & -> & Sq & Hq)|[-> H]]; cbn [rbind].
  - left. eexists. split; [reflexivity|]. split.
    + destruct (is_end q); auto. eapply suf_trans; [|exact Sq]. eapply suf_trans; apply suf_tl.
    + intros H. specialize (Hq H). rewrite Hq. apply is_end_spec in Hq as [b ->]. cbn [tl]. eauto.
  - right. auto.
Qed.

(** ** Guards are inherited by the rest of the text *)
Definition G (s : list Z) : Prop :=
  closed s /\ (s = [] \/ ends_nl s \/ nocom s) /\ (zlen s < 985 \/ (nocom s /\ lines_below 985 s)).

Lemma closed_suf a b : suf a b -> closed b -> closed a.
Proof. intros S H u U. apply H. eapply suf_trans; eauto. Qed.
Lemma nocom_suf a b : suf a b -> nocom b -> nocom a.
Proof. intros S H u. destruct (H u) as [A B]. split; intros U; [apply A|apply B]; eapply suf_trans; eauto. Qed.
Lemma nocom_closed a : nocom a -> closed a.
Proof. intros H u U. destruct (H u) as [_ B]. contradiction. Qed.
Lemma lines_suf n a b : suf a b -> lines_below n b -> lines_below n a.
Proof. intros [p ->] H x u y E. apply (H (p ++ x) u y). rewrite E. now rewrite <- app_assoc. Qed.
Lemma ends_nl_suf a b : suf a b -> ends_nl b -> a = [] \/ ends_nl a.
Proof.
  intros [p ->] [q E]. destruct a as [|x a] using rev_ind; [auto|]. right. rewrite app_assoc in E.
  apply app_inj_tail in E as [_ ->]. now exists a.
Qed.
Lemma G_suf a b : suf a b -> G b -> G a.
Proof.
  intros S (A & B & C). split; [eapply closed_suf; eauto|]. split.
  - destruct B as [->|[B|B]].
    + destruct S as [p E]. left. destruct p; [now rewrite E|discriminate].
    + destruct (ends_nl_suf a b S B); auto.
    + right; right. eapply nocom_suf; eauto.
  - destruct C as [C|[C D]].
    + left. pose proof (suf_len _ _ S). unfold zlen in *. lia.
    + right. split; [eapply nocom_suf; eauto|eapply lines_suf; eauto].
Qed.
Lemma G_has u : closed (47 :: 42 :: u) -> has u.
Proof. intros C. destruct (C u (suf_refl _)) as (a & b & ->). exists a, b. reflexivity. Qed.

(** ** Blanks *)
Lemma spaces_suf s : suf (spaces s) s.
Proof. induction s as [|c s IH]; cbn; auto with suf. destruct ((c =? 32) || (c =? 9)); auto with suf. Qed.

Lemma hd10 (q : list Z) : hd 0 q = 10 -> exists r, q = 10 :: r.
Proof. destruct q as [|x r]; cbn; intros H; [lia|]. subst. eauto. Qed.

(** What happens after spaces and comment: [again] says that the loop goes on. *)
Definition brest (f : nat) (again : bool) (q : list Z) : res (list Z) :=
  let q' := skip1 13 q in
  if hd 0 q' =? 10 then blanks_f f (tl q') else if again then blanks_f f q' else Ok q'.
Lemma blanks_eq f s : blanks_f (S f) s =
  if is_single (spaces s) then brest f false (adv_char 10 (spaces s))
  else if is_start (spaces s) then do q <- end_comment (spaces s); brest f true q
  else brest f false (spaces s).
Proof. reflexivity. Qed.

Lemma blanks_f_spec f : forall s, (length s < f)%nat ->
  (exists q, blanks_f f s = Ok q /\ suf q s) \/ (blanks_f f s = UB /\ ~ closed s).
Proof.
  induction f as [|f IH]; intros s Hf; [lia|]. rewrite blanks_eq.
  pose proof (spaces_suf s) as S0. set (s1 := spaces s) in *.
  assert (R : forall ag q, suf q s -> (ag = true -> length q < length s)%nat ->
    (exists q0, brest f ag q = Ok q0 /\ suf q0 s) \/ (brest f ag q = UB /\ ~ closed s)).
  { intros ag q Sq Hq. unfold brest.
    assert (S2 : suf (skip1 13 q) s) by (eapply suf_trans; [apply skip1_suf|exact Sq]).
    pose proof (suf_len _ _ S2) as L2. pose proof (suf_len _ _ (skip1_suf 13 q)) as L3.
    destruct (Z.eqb_spec (hd 0 (skip1 13 q)) 10) as [E|E].
    - apply hd10 in E as [r E]. rewrite E in *. cbn [tl]. cbn in L2.
      destruct (IH r ltac:(lia)) as [(q0 & -> & Q)|[-> Q]].
      + left. exists q0. split; auto. eapply suf_trans; [exact Q|]. eapply suf_trans; [apply suf_cons|exact S2].
      + right. split; auto. intros C. apply Q. eapply closed_suf; [|exact C]. eapply suf_trans; [apply suf_cons|exact S2].
    - destruct ag; [|eauto]. specialize (Hq eq_refl).
      destruct (IH (skip1 13 q) ltac:(lia)) as [(q0 & -> & Q)|[-> Q]].
      + left. exists q0. split; auto. eapply suf_trans; eauto.
      + right. split; auto. intros C. apply Q. eapply closed_suf; eauto. }
  destruct (is_single s1) eqn:E1.
  { apply R; [|discriminate]. eapply suf_trans; [apply adv_char_suf|exact S0]. }
  destruct (is_start s1) eqn:E2; [|apply R; [exact S0|discriminate]].
  apply is_start_spec in E2 as [u E2]. rewrite E2 in *.
  pose proof (suf_len _ _ S0) as L0. cbn in L0.
  destruct (end_comment_spec u) as [(q & -> & Q & _)|[-> Q]]; cbn [rbind].
  - apply R.
    + eapply suf_trans; [exact Q|]. eapply suf_trans; [|exact S0]. auto with suf.
    + intros _. pose proof (suf_len _ _ Q). lia.
  - right. split; auto. intros C. apply Q. apply G_has. eapply closed_suf; eauto.
Qed.

Lemma blanks_f_mono f : forall f' s, (length s < f)%nat -> (length s < f')%nat -> blanks_f f s = blanks_f f' s.
Proof.
  induction f as [|f IH]; intros f' s Hf Hf'; [lia|]. destruct f' as [|f']; [lia|]. rewrite !blanks_eq.
  pose proof (spaces_suf s) as S0. set (s1 := spaces s) in *.
  assert (R : forall ag q, (length q <= length s)%nat -> (ag = true -> length q < length s)%nat -> brest f ag q = brest f' ag q).
  { intros ag q L Hq. unfold brest. pose proof (suf_len _ _ (skip1_suf 13 q)) as L3.
    destruct (Z.eqb_spec (hd 0 (skip1 13 q)) 10) as [E|E].
    - apply hd10 in E as [r E]. rewrite E in *. cbn [tl]. cbn in L3. apply IH; lia.
    - destruct ag; auto. specialize (Hq eq_refl). apply IH; lia. }
  pose proof (suf_len _ _ S0) as L0.
  destruct (is_single s1) eqn:E1.
  { apply R; [|discriminate]. pose proof (suf_len _ _ (adv_char_suf 10 s1)). lia. }
  destruct (is_start s1) eqn:E2; [|apply R; [lia|discriminate]].
  apply is_start_spec in E2 as [u E2]. rewrite E2 in *. cbn in L0.
  destruct (end_comment_spec u) as [(q & -> & Q & _)|[-> Q]]; cbn [rbind]; auto.
  pose proof (suf_len _ _ Q). apply R; [lia|]. intros _. lia.
Qed.
Lemma blanks_spec s : (exists q, blanks s = Ok q /\ suf q s) \/ (blanks s = UB /\ ~ closed s).
Proof. apply blanks_f_spec. lia. Qed.
Lemma blanks_fuel f s : (length s < f)%nat -> blanks_f f s = blanks s.
Proof. intros H. apply blanks_f_mono; auto. Qed.

(** ** Number tokens *)
Lemma adv_char_nl c s : ends_nl s -> ends_nl (adv_char c s).
Proof.
  induction s as [|x s IH]; intros [p E]; [destruct p; discriminate|].
  destruct p as [|y p]; cbn in E; injection E as -> ->.
  - cbn. exists []. reflexivity.
  - cbn [adv_char]. destruct (Z.eqb_spec y 10); [exists (y :: p); reflexivity|].
    destruct (Z.eqb_spec y 13); [now exists p|]. destruct (Z.eqb_spec y c); [exists (y :: p); reflexivity|].
    apply IH. now exists p.
Qed.
Lemma ends_nl_ne s : ends_nl s -> s <> [].
Proof. intros [p ->] E. destruct p; discriminate. Qed.

Lemma to_tok_spec f : forall s, (length s < f)%nat ->
  (exists q, to_tok f s = Ok q /\ suf q s /\
     (nocom s -> exists p, s = p ++ q /\ Forall (fun c => endchar c = false) p)) \/
  (to_tok f s = UB /\ ~ (closed s /\ (s = [] \/ ends_nl s \/ nocom s))).
Proof.
  induction f as [|f IH]; intros s Hf; [lia|]. destruct s as [|y s].
  { cbn. left. exists []. split; auto. split; auto with suf. intros _. exists []. auto. }
  assert (exists s1, (if is_start (y :: s) then end_comment (y :: s) else Ok (y :: s)) = Ok s1 /\ suf s1 (y :: s) /\
    (closed (y :: s) -> ends_nl (y :: s) -> ends_nl s1) /\ (nocom (y :: s) -> s1 = y :: s)
    \/ (if is_start (y :: s) then end_comment (y :: s) else Ok (y :: s)) = UB /\ ~ closed (y :: s)) as (s1 & [(E1 & S1 & N1 & C1)|[E1 C1]]).
  { destruct (is_start (y :: s)) eqn:E; [|exists (y :: s); left; auto with suf].
    apply is_start_spec in E as [u E]. rewrite E. destruct (end_comment_spec u) as [(q & Q1 & Q & Hq)|[Q1 Q]].
    - exists q. left. split; [exact Q1|]. split; [eapply suf_trans; [exact Q|auto with suf]|]. split.
      + intros C N. destruct (Hq (G_has u C)) as (q' & Sq' & ->).
        destruct (ends_nl_suf (42 :: 47 :: q) (47 :: 42 :: u)) as [|[p Ep]]; auto.
        * eapply suf_trans; [exact Sq'|auto with suf].
        * discriminate.
        * destruct p as [|? p]; [discriminate|]. injection Ep as _ Ep. destruct p as [|? p]; [discriminate|].
          injection Ep as _ Ep. now exists p.
      + intros N. destruct (N u) as [_ B]. destruct B. auto with suf.
    - exists []. right. split; [exact Q1|]. intros C. apply Q, G_has, C. }
  2: { right. cbn [to_tok]. rewrite E1. cbn [rbind]. split; [reflexivity|tauto]. }
  cbn [to_tok]. rewrite E1. cbn [rbind].
  set (s2 := if is_single s1 then adv_char 10 s1 else s1).
  assert (S2 : suf s2 (y :: s)).
  { unfold s2. destruct (is_single s1); auto. eapply suf_trans; [apply adv_char_suf|exact S1]. }
  assert (N2 : closed (y :: s) -> ends_nl (y :: s) -> ends_nl s2).
  { intros C N. unfold s2. destruct (is_single s1); auto using adv_char_nl. }
  assert (C2 : nocom (y :: s) -> s2 = y :: s).
  { intros N. unfold s2. rewrite (C1 N). destruct (is_single (y :: s)) eqn:E; auto.
    apply is_single_spec in E as [u E]. destruct (N u) as [A _]. destruct A. rewrite E. auto with suf. }
  destruct s2 as [|c r] eqn:E2.
  - right. split; auto. intros (C & [D|[D|D]]); [discriminate| |].
    + apply (ends_nl_ne [] (N2 C D)). reflexivity.
    + specialize (C2 D). discriminate.
  - destruct (endchar c) eqn:Ec.
    + left. exists (c :: r). split; auto. split; auto. intros N. exists []. rewrite (C2 N). auto.
    + pose proof (suf_len _ _ S2) as L2. cbn in L2, Hf.
      destruct (IH r ltac:(lia)) as [(q & Q1 & Q2 & Q3)|[Q1 Q2]].
      * left. exists q. split; auto. split; [eapply suf_trans; [exact Q2|]; eapply suf_trans; [apply suf_cons|exact S2]|].
        intros N. specialize (C2 N). injection C2 as <- <-.
        destruct Q3 as (p & -> & F); [eapply nocom_suf; [apply suf_cons|exact N]|]. exists (c :: p). auto.
      * right. split; auto. intros (C & D). apply Q2.
        assert (SR : suf r (y :: s)) by (eapply suf_trans; [apply suf_cons|exact S2]).
        split; [eapply closed_suf; eauto|]. destruct D as [D|[D|D]]; [discriminate| |].
        -- destruct (ends_nl_suf r (y :: s) SR D); auto.
        -- right; right. eapply nocom_suf; eauto.
Qed.

(** ** Strings *)
Lemma str_body_spec s : forall prev, exists t, s = fst (str_body prev s) ++ t /\ snd (str_body prev s) = t /\
  ~ In 10 (fst (str_body prev s)) /\ ~ In 13 (fst (str_body prev s)).
Proof.
  induction s as [|c s IH]; intros prev; cbn [str_body]; [exists []; cbn; auto|].
  destruct ((c =? 10) || (c =? 13) || ((c =? 34) && negb (prev =? 92))) eqn:E; [exists (c :: s); cbn; auto|].
  apply orb_false_iff in E as [E _]. apply orb_false_iff in E as [E1 E2]. apply Z.eqb_neq in E1, E2.
  destruct (IH c) as (t & A & B & C & D). destruct (str_body c s) as [b t']. cbn in *. subst t'.
  exists t. split; [now f_equal|]. split; auto. split; intros [|]; auto.
Qed.

Lemma read_string_spec s :
  (exists b q, read_string s = Ok (b, q) /\ suf q s /\ (length q + 2 <= length s)%nat /\
     exists t, s = 34 :: b ++ 34 :: t /\ ~ In 10 b /\ ~ In 13 b) \/
  read_string s = Thr \/ (read_string s = UB /\ ~ closed s).
Proof.
  unfold read_string. destruct (Z.eqb_spec (hd 0 s) 34) as [E|]; [|auto].
  destruct s as [|c s]; [cbn in E; lia|]. cbn in E. subst c. cbn [tl].
  destruct (str_body_spec s 34) as (t & A & B & C & D). destruct (str_body 34 s) as [b t']. cbn in A, B, C, D. subst t'.
  destruct (Z.eqb_spec (hd 0 t) 34) as [E|]; [|auto].
  destruct t as [|c t]; [cbn in E; lia|]. cbn in E. subst c. cbn [tl].
  destruct (blanks_spec t) as [(q & -> & Sq)|[-> Q]]; cbn [rbind].
  - left. exists b, q. split; auto.
    assert (Stt : suf t (34 :: s)). { exists (34 :: b ++ [34]). cbn. now rewrite <- app_assoc, A. }
    split; [eapply suf_trans; eauto|]. split.
    + pose proof (suf_len _ _ Sq). rewrite A. cbn. rewrite app_length. cbn. lia.
    + exists t. rewrite A. auto.
  - right; right. split; auto. intros K. apply Q. eapply closed_suf; [|exact K].
    exists (34 :: b ++ [34]). cbn. now rewrite <- app_assoc, A.
Qed.

(** ** Values *)
Lemma prefix_spec p s : prefix p s = true -> exists r, s = p ++ r.
Proof.
  unfold prefix, leqb. destruct (list_eq_dec _ _ _) as [E|]; [|discriminate]. intros _.
  exists (skipn (length p) s). rewrite <- E at 1. symmetry. apply firstn_skipn.
Qed.

Lemma endchar_nl u : Forall (fun c => endchar c = false) u -> ~ In 10 u /\ ~ In 13 u.
Proof.
  intros F. split; intros H; rewrite Forall_forall in F; specialize (F _ H); discriminate.
Qed.

Section Values.
  Variable num : list Z -> option f64.

  Definition vok (s : list Z) (m : res (jval * list Z)) : Prop :=
    (exists v q, m = Ok (v, q) /\ suf q s /\ (length q < length s)%nat) \/ m = Thr \/ (m = UB /\ ~ G s).

  Lemma vok_suf a b m : suf a b -> vok a m -> vok b m.
  Proof.
    intros S [(v & q & E & Q & L)|[E|[E Q]]]; [left|right; left|right; right]; auto.
    - exists v, q. split; auto. split; [eapply suf_trans; eauto|]. pose proof (suf_len _ _ S). lia.
    - split; auto. intros K. apply Q. eapply G_suf; eauto.
  Qed.

  Lemma scalar_vok s : vok s (j_scalar num s).
  Proof.
    unfold j_scalar. destruct (hd 0 s =? 34).
    { destruct (read_string_spec s) as [(b & q & -> & Q & L & _)|[->|[-> Q]]]; cbn [rbind fst snd].
      - left. eexists _, _. split; [reflexivity|]. split; auto. lia.
      - right; left; reflexivity.
      - right; right. split; auto. intros K. apply Q, K. }
    destruct (prefix [116; 114; 117; 101] s) eqn:E1.
    { apply prefix_spec in E1 as [r ->]. cbn [skipn app]. left. eexists _, _. split; [reflexivity|].
      split; [auto with suf|cbn; lia]. }
    destruct (prefix [102; 97; 108; 115; 101] s) eqn:E2.
    { apply prefix_spec in E2 as [r ->]. cbn [skipn app]. left. eexists _, _. split; [reflexivity|].
      split; [auto with suf|cbn; lia]. }
    destruct (to_tok_spec (S (length s)) s ltac:(lia)) as [(q & -> & Q & N)|[-> Q]]; cbn [rbind].
    2: { right; right. split; auto. unfold G. tauto. }
    destruct (length s - length q)%nat as [|n] eqn:En; [right; left; reflexivity|].
    destruct (Z.leb_spec NUMBUF (Z.of_nat (S n))) as [H|H].
    - right; right. split; auto. intros (_ & _ & [K|[K1 K2]]).
      + unfold NUMBUF, zlen in *. lia.
      + destruct (N K1) as (p & Ep & F). destruct (endchar_nl p F) as [F1 F2].
        pose proof (K2 [] p q Ep F1 F2) as L. rewrite Ep, app_length in En. unfold NUMBUF, zlen in *. lia.
    - left. eexists _, _. split; [reflexivity|]. split; auto. lia.
  Qed.

  Lemma bvok s k : (forall q, suf q s -> vok q (k q)) -> vok s (do q <- blanks s; k q).
  Proof.
    intros H. destruct (blanks_spec s) as [(q & -> & Q)|[-> Q]]; cbn [rbind].
    - eapply vok_suf; [exact Q|auto].
    - right; right. split; auto. intros K. apply Q, K.
  Qed.
  (** Same with a known lower bound on what was consumed. *)
  Lemma bvok' s0 s k : suf s s0 -> (forall q, suf q s -> vok s0 (k q)) -> vok s0 (do q <- blanks s; k q).
  Proof.
    intros S0 H. destruct (blanks_spec s) as [(q & -> & Q)|[-> Q]]; cbn [rbind].
    - auto.
    - right; right. split; auto. intros K. apply Q. destruct (G_suf _ _ S0 K) as [C _]. exact C.
  Qed.
  Lemma hdc c (q : list Z) : c <> 0 -> hd 0 q = c -> exists r, q = c :: r.
  Proof. destruct q as [|x r]; cbn; intros Hc H; [congruence|]. subst. eauto. Qed.

  Lemma vok_ok s v q : suf q s -> (length q < length s)%nat -> vok s (Ok (v, q)).
  Proof. intros. left. eauto. Qed.
  Lemma vok_thr s : vok s Thr.
  Proof. right; left; reflexivity. Qed.

  Lemma values_vok f :
    (forall s, (2 * length s + 2 <= f)%nat -> vok s (j_val num f s)) /\
    (forall s acc, (2 * length s + 3 <= f)%nat -> vok s (j_items num f s acc)) /\
    (forall s acc, (2 * length s + 1 <= f)%nat -> vok s (j_fields num f s acc)).
  Proof.
    induction f as [|f (IHv & IHi & IHf)]; [split; [|split]; intros; lia|]. split; [|split].
    - intros s Hf. cbn [j_val]. apply bvok. intros s1 S1. pose proof (suf_len _ _ S1) as L1.
      destruct (Z.eqb_spec (hd 0 s1) 91) as [E|_].
      { apply hdc in E as [r ->]; [|lia]. cbn [tl]. cbn in L1. apply bvok'; [auto with suf|]. intros s2 S2.
        pose proof (suf_len _ _ S2) as L2. destruct (Z.eqb_spec (hd 0 s2) 93) as [E|_].
        - apply hdc in E as [r2 ->]; [|lia]. cbn [tl]. cbn in L2. apply vok_ok; [|cbn; lia].
          apply suf_cons', (suf_cons_inv _ _ _ S2).
        - eapply vok_suf; [|apply IHi; lia]. auto with suf. }
      destruct (Z.eqb_spec (hd 0 s1) 123) as [E|_].
      { apply hdc in E as [r ->]; [|lia]. cbn [tl]. cbn in L1. apply bvok'; [auto with suf|]. intros s2 S2.
        pose proof (suf_len _ _ S2) as L2. destruct (Z.eqb_spec (hd 0 s2) 125) as [E|_].
        - apply hdc in E as [r2 ->]; [|lia]. cbn [tl]. cbn in L2. apply vok_ok; [|cbn; lia].
          apply suf_cons', (suf_cons_inv _ _ _ S2).
        - eapply vok_suf; [|apply IHf; lia]. auto with suf. }
      apply scalar_vok.
    - intros s acc Hf. cbn [j_items].
      destruct (IHv s ltac:(lia)) as [(v & q & -> & Q & L)|[->|[-> Q]]]; cbn [rbind fst snd];
        [|apply vok_thr|right; right; auto].
      apply bvok'; [exact Q|]. intros s2 S2. pose proof (suf_len _ _ S2) as L2.
      assert (S3 : suf s2 s) by (eapply suf_trans; eauto).
      destruct (Z.eqb_spec (hd 0 s2) 44) as [E|_].
      + apply hdc in E as [r ->]; [|lia]. cbn [tl]. cbn in L2. apply suf_cons_inv in S3.
        apply bvok'; [exact S3|]. intros s3 S4. pose proof (suf_len _ _ S4) as L4.
        assert (S5 : suf s3 s) by (eapply suf_trans; eauto).
        destruct (Z.eqb_spec (hd 0 s3) 93) as [E|_].
        * apply hdc in E as [r2 ->]; [|lia]. cbn [tl]. cbn in L4. apply vok_ok; [|cbn; lia].
          eapply suf_cons_inv; eauto.
        * eapply vok_suf; [exact S5|apply IHi; lia].
      + destruct (Z.eqb_spec (hd 0 s2) 93) as [E|_]; [|apply vok_thr].
        apply hdc in E as [r2 ->]; [|lia]. cbn [tl]. cbn in L2. apply vok_ok; [|cbn; lia]. eapply suf_cons_inv; eauto.
    - intros s acc Hf. cbn [j_fields].
      destruct (read_string_spec s) as [(b & q & -> & Q & L & t & Et & N1 & N2)|[->|[-> Q]]]; cbn [rbind fst snd];
        [|apply vok_thr|right; right; split; auto; intros K; apply Q, K].
      destruct (Z.eqb_spec (hd 0 q) 58) as [E|_].
      + apply hdc in E as [r ->]; [|lia]. cbn [tl]. cbn in L. apply suf_cons_inv in Q.
        apply bvok'; [exact Q|]. intros s1 S1. pose proof (suf_len _ _ S1) as L1.
        assert (S1' : suf s1 s) by (eapply suf_trans; eauto).
        destruct (IHv s1 ltac:(lia)) as [(v & q & -> & Q2 & L3)|[->|[-> Q2]]]; cbn [rbind fst snd];
          [|apply vok_thr|right; right; split; auto; intros K; apply Q2; eapply G_suf; eauto].
        assert (S2' : suf q s) by (eapply suf_trans; eauto).
        apply bvok'; [exact S2'|]. intros s2 S2. pose proof (suf_len _ _ S2) as L2.
        assert (S3 : suf s2 s) by (eapply suf_trans; eauto).
        destruct (Z.eqb_spec (hd 0 s2) 44) as [E|_].
        * apply hdc in E as [r2 ->]; [|lia]. cbn [tl]. cbn in L2. apply suf_cons_inv in S3.
          apply bvok'; [exact S3|]. intros s3 S4. pose proof (suf_len _ _ S4) as L4.
          assert (S5 : suf s3 s) by (eapply suf_trans; eauto).
          destruct (Z.eqb_spec (hd 0 s3) 125) as [E|_].
          -- apply hdc in E as [r3 ->]; [|lia]. cbn [tl]. cbn in L4. apply vok_ok; [|cbn; lia].
             eapply suf_cons_inv; eauto.
          -- eapply vok_suf; [exact S5|apply IHf; lia].
        * destruct (Z.eqb_spec (hd 0 s2) 125) as [E|_]; [|apply vok_thr].
          apply hdc in E as [r2 ->]; [|lia]. cbn [tl]. cbn in L2. apply vok_ok; [|cbn; lia]. eapply suf_cons_inv; eauto.
      + destruct (Z.leb_spec KEYBUF (zlen b)) as [H|H]; [|apply vok_thr].
        right; right. split; auto. intros (_ & _ & [K|[_ K]]).
        * rewrite Et in K. unfold KEYBUF, zlen in *. cbn in K. rewrite app_length in K. cbn in K. lia.
        * pose proof (K [34] b (34 :: t) Et N1 N2). unfold KEYBUF, zlen in *. lia.
  Qed.

  (** Parsing ends, with a value, an error or a read out of bounds; the last only when the
      text is not guarded. *)
  Lemma j_parse_cases t : (exists v, j_parse num t = Ok v) \/ j_parse num t = Thr \/ (j_parse num t = UB /\ ~ G t).
  Proof.
    unfold j_parse. destruct (values_vok (2 * length t + 2)) as [H _].
    destruct (H t ltac:(lia)) as [(v & q & -> & _)|[->|[-> Q]]]; cbn [rbind]; eauto.
  Qed.
End Values.

Lemma short_closed_G t : short_closed t -> G t.
Proof. intros (A & B & C). split; auto. Qed.
Lemma plain_lines_G t : plain_lines t -> G t.
Proof. intros (A & B). split; [now apply nocom_closed|]. auto. Qed.
