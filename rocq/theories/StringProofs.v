From Coq Require Import List ZArith Bool Lia.
From Verif Require Import Base StringModel StringSpec.
Import ListNotations.
Open Scope Z_scope.

(** ** Buffers *)
Lemma zlen_app {A} (a b : list A) : zlen (a ++ b) = zlen a + zlen b.
Proof. unfold zlen. rewrite app_length. lia. Qed.
Lemma zlen_nonneg {A} (a : list A) : 0 <= zlen a.
Proof. unfold zlen. lia. Qed.
Lemma zlen_nil : zlen (@nil Z) = 0. Proof. reflexivity. Qed.
Lemma zlen_cons {A} (x : A) l : zlen (x :: l) = zlen l + 1.
Proof. unfold zlen. cbn [length]. lia. Qed.
Lemma zlen_zeros n : 0 <= n -> zlen (zeros n) = n.
Proof. intros. unfold zlen, zeros. rewrite repeat_length. lia. Qed.
Lemma to_nat_zlen {A} (l : list A) : Z.to_nat (zlen l) = length l.
Proof. unfold zlen. lia. Qed.
Lemma zlen_0 {A} (l : list A) : zlen l = 0 -> l = [].
Proof. destruct l; auto. rewrite zlen_cons. pose proof (zlen_nonneg l). lia. Qed.
Lemma zeros_succ n : 0 <= n -> zeros (n + 1) = 0 :: zeros n.
Proof. intros. unfold zeros. replace (Z.to_nat (n + 1)) with (S (Z.to_nat n)) by lia. reflexivity. Qed.
Lemma zeros_app a b : 0 <= a -> 0 <= b -> zeros (a + b) = zeros a ++ zeros b.
Proof. intros. unfold zeros. rewrite Z2Nat.inj_add by lia. apply repeat_app. Qed.
Lemma zeros_0 : zeros 0 = []. Proof. reflexivity. Qed.

Lemma firstn_zlen {A} (a b : list A) : firstn (Z.to_nat (zlen a)) (a ++ b) = a.
Proof. rewrite to_nat_zlen. rewrite firstn_app, Nat.sub_diag, firstn_all, firstn_O, app_nil_r. reflexivity. Qed.
Lemma skipn_zlen {A} (a b : list A) : skipn (Z.to_nat (zlen a)) (a ++ b) = b.
Proof. rewrite to_nat_zlen. rewrite skipn_app, Nat.sub_diag, skipn_all, skipn_O. reflexivity. Qed.

Lemma splice_ok a b c xs : zlen b = zlen xs -> splice (a ++ b ++ c) (zlen a) xs = Some (a ++ xs ++ c).
Proof.
  intros H. unfold splice. pose proof (zlen_nonneg a). pose proof (zlen_nonneg c).
  rewrite !zlen_app.
  destruct (Z.leb_spec 0 (zlen a)); [|lia]. destruct (Z.leb_spec (zlen a + zlen xs) (zlen a + (zlen b + zlen c))); [|lia].
  cbn [andb]. rewrite firstn_zlen. do 3 f_equal.
  rewrite to_nat_zlen. unfold zlen in H. replace (length a + length xs)%nat with (length (a ++ b)) by (rewrite app_length; lia).
  rewrite app_assoc, skipn_app, Nat.sub_diag, skipn_all, skipn_O. reflexivity.
Qed.

Lemma splice_zeros a xs n : zlen xs <= n ->
  splice (a ++ zeros n) (zlen a) xs = Some (a ++ xs ++ zeros (n - zlen xs)).
Proof.
  intros H. pose proof (zlen_nonneg xs). replace n with (zlen xs + (n - zlen xs)) at 1 by lia.
  rewrite zeros_app by lia. apply splice_ok. now rewrite zlen_zeros.
Qed.
Lemma splice_zeros0 xs n : zlen xs <= n ->
  splice (zeros n) 0 xs = Some (xs ++ zeros (n - zlen xs)).
Proof. intros H. apply (splice_zeros [] xs n H). Qed.

Lemma nonul_app a b : nonul (a ++ b) <-> nonul a /\ nonul b.
Proof. unfold nonul. apply Forall_app. Qed.
Lemma nonul_cons x l : nonul (x :: l) <-> x <> 0 /\ nonul l.
Proof. unfold nonul. split; [intros H; inversion H; auto|intros []; constructor; auto]. Qed.
Lemma nonul_nil : nonul []. Proof. constructor. Qed.
Lemma nonul_firstn n l : nonul l -> nonul (firstn n l).
Proof. intros H. rewrite <- (firstn_skipn n l), nonul_app in H. tauto. Qed.
Lemma nonul_skipn n l : nonul l -> nonul (skipn n l).
Proof. intros H. rewrite <- (firstn_skipn n l), nonul_app in H. tauto. Qed.

Lemma upto0_ok l r : nonul l -> upto0 (l ++ 0 :: r) = Some l.
Proof.
  induction l as [|x l IH]; cbn [app upto0]; intros H; auto.
  apply nonul_cons in H. destruct H. destruct (Z.eqb_spec x 0); [lia|]. now rewrite IH.
Qed.

Lemma cstr_ok a l r : nonul l -> cstr (a ++ l ++ 0 :: r) (zlen a) = Some l.
Proof.
  intros H. unfold cstr. pose proof (zlen_nonneg a). rewrite !zlen_app.
  pose proof (zlen_nonneg l). pose proof (zlen_nonneg (0 :: r)).
  destruct (Z.leb_spec 0 (zlen a)); [|lia].
  match goal with |- context [?x <=? ?y] => destruct (Z.leb_spec x y); [|lia] end.
  cbn [andb]. rewrite skipn_zlen. now apply upto0_ok.
Qed.
Lemma cstr0_ok l r : nonul l -> cstr (l ++ 0 :: r) 0 = Some l.
Proof. intros H. apply (cstr_ok [] l r H). Qed.

Lemma takestr_ok n l r : nonul l -> (n <= length l)%nat -> takestr n (l ++ r) = Some (firstn n l).
Proof.
  revert l; induction n as [|n IH]; intros l H Hn; [reflexivity|].
  destruct l as [|x l]; [simpl in Hn; lia|]. apply nonul_cons in H. destruct H.
  cbn [app takestr firstn]. destruct (Z.eqb_spec x 0); [lia|]. rewrite IH; auto. simpl in Hn; lia.
Qed.
Lemma takestr_all n l r : nonul l -> (length l < n)%nat -> takestr n (l ++ 0 :: r) = Some l.
Proof.
  revert l; induction n as [|n IH]; intros l H Hn; [lia|].
  destruct l as [|x l]; cbn [app takestr]; auto. apply nonul_cons in H. destruct H.
  destruct (Z.eqb_spec x 0); [lia|]. rewrite IH; auto. simpl in Hn; lia.
Qed.

(** ** Representation *)
Record srep (s : cstring) (l : list Z) : Prop := {
  sr_nonul : nonul l;
  sr_count : scount s = zlen l;
  sr_buf : (sbuf s = None /\ l = [] /\ ssize s = 0) \/
           (exists k, 0 <= k /\ sbuf s = Some (l ++ zeros (k + 1)) /\ ssize s = zlen l + k) }.

Lemma srep_new : srep s_new [].
Proof. split; auto using nonul_nil. Qed.

Lemma srep_mk l k n sz : nonul l -> 0 <= k -> n = zlen l -> sz = zlen l + k ->
  srep (mks (Some (l ++ zeros (k + 1))) n sz) l.
Proof. intros; subst. split; auto. right. exists k. auto. Qed.

Lemma cchars_rep s l : srep s l -> exists k, 0 <= k /\ cchars s = l ++ 0 :: zeros k.
Proof.
  intros [Hn Hc [(Hb & -> & _)|(k & Hk & Hb & _)]]; unfold cchars; rewrite Hb.
  - exists 0. split; [lia|reflexivity].
  - exists k. split; auto. now rewrite zeros_succ.
Qed.
Lemma raw_rep s l : srep s l -> l <> [] -> exists k, 0 <= k /\ raw s = l ++ 0 :: zeros k.
Proof.
  intros [Hn Hc [(Hb & -> & _)|(k & Hk & Hb & _)]] Hne; unfold raw; rewrite ?Hb; [congruence|].
  exists k. split; auto. now rewrite zeros_succ.
Qed.

Lemma cstr_cchars s l : srep s l -> cstr (cchars s) 0 = Some l.
Proof. intros R. destruct (cchars_rep s l R) as (k & _ & ->). apply cstr0_ok, R. Qed.

Lemma cstr_cchars_at s a b : srep s (a ++ b) -> cstr (cchars s) (zlen a) = Some b.
Proof.
  intros R. destruct (cchars_rep s _ R) as (k & _ & ->). rewrite <- app_assoc. apply cstr_ok.
  pose proof (sr_nonul _ _ R) as H. now apply nonul_app in H.
Qed.

Lemma strlen_cchars s l : srep s l -> c_strlen (cchars s) 0 = Some (zlen l).
Proof. intros R. unfold c_strlen. now rewrite (cstr_cchars s l R). Qed.

(** ** Construction and copying *)
Lemma s_set_ok l r : nonul l -> exists s, s_set (l ++ 0 :: r) = Ok s /\ srep s l /\ sbuf s <> None.
Proof.
  intros H. unfold s_set, c_strlen, c_strcpy. rewrite cstr0_ok by auto. cbn [option_map ofo rbind].
  pose proof (zlen_nonneg l).
  assert (Hlen : zlen (l ++ [0]) = zlen l + 1) by (rewrite zlen_app; reflexivity).
  rewrite splice_zeros0 by lia. cbn [ofo rbind].
  eexists. split; [reflexivity|]. split; [|discriminate].
  rewrite Hlen. replace (zlen l + 16 + 1 - (zlen l + 1)) with 16 by lia.
  rewrite <- app_assoc. change ([0] ++ zeros 16) with (zeros (16 + 1)). apply srep_mk; auto; lia.
Qed.
Lemma s_set_zeros l k : nonul l -> 0 < k -> exists s, s_set (l ++ zeros k) = Ok s /\ srep s l /\ sbuf s <> None.
Proof. intros H Hk. replace k with (k - 1 + 1) by lia. rewrite zeros_succ by lia. now apply s_set_ok. Qed.

Lemma s_lit_ok l : nonul l -> exists s, s_lit l = Ok s /\ srep s l /\ sbuf s <> None.
Proof. apply s_set_ok. Qed.
Lemma s_copy_ok s l : srep s l -> exists s', s_copy s = Ok s' /\ srep s' l /\ sbuf s' <> None.
Proof.
  intros R. unfold s_copy. destruct (cchars_rep s l R) as (k & _ & ->). apply s_set_ok, R.
Qed.

(** ** Appending *)
Lemma raw_read s l : srep s l -> readn (raw s) 0 (scount s) = Some l.
Proof.
  intros R. rewrite (sr_count _ _ R). unfold readn. destruct (Z.eqb_spec (zlen l) 0) as [E|E].
  - now apply zlen_0 in E; subst.
  - destruct (raw_rep s l R) as (k & Hk & ->). { intros ->; apply E; reflexivity. }
    pose proof (zlen_nonneg l). rewrite zlen_app. pose proof (zlen_nonneg (0 :: zeros k)).
    cbn [Z.leb Z.compare andb]. destruct (Z.leb_spec 0 (zlen l)); [|lia].
    destruct (Z.leb_spec (0 + zlen l) (zlen l + zlen (0 :: zeros k))); [|lia]. cbn [andb].
    change (Z.to_nat 0) with 0%nat. rewrite skipn_O. now rewrite firstn_zlen.
Qed.

Lemma inc_slots_ok s l n : srep s l -> 0 < n ->
  exists s' k, inc_slots s n = Ok s' /\ scount s' = zlen l + n /\ ssize s' = zlen l + n + k /\ 0 <= k
    /\ sbuf s' = Some (l ++ zeros (n + k + 1)).
Proof.
  intros R Hn. unfold inc_slots. rewrite (sr_count _ _ R). pose proof (zlen_nonneg l).
  pose proof (raw_read s l R) as Hr. rewrite (sr_count _ _ R) in Hr.
  destruct (Z.leb_spec (ssize s) (zlen l + n)).
  - rewrite Hr. eexists _, ((zlen l * 3) / 2). split; [reflexivity|].
    cbn [scount ssize sbuf].
    assert (0 <= zlen l * 3 / 2) by (apply Z.div_pos; lia).
    repeat split; try lia. do 3 f_equal. lia.
  - destruct (sr_buf _ _ R) as [(Hb & -> & Hs)|(k & Hk & Hb & Hs)].
    { rewrite zlen_nil in *. lia. }
    eexists _, (k - n). split; [reflexivity|]. cbn [scount ssize sbuf].
    repeat split; try lia. rewrite Hb. do 3 f_equal. lia.
Qed.

Lemma append_buf_ok s l t r : srep s l -> nonul t -> 0 < zlen t ->
  exists s', append_buf s (t ++ r) (zlen t) = Ok s' /\ srep s' (l ++ t).
Proof.
  intros R Ht Hz. unfold append_buf.
  destruct (inc_slots_ok s l (zlen t) R Hz) as (s1 & k & E & Hc & Hs & Hk & Hb). rewrite E. cbn [rbind].
  unfold raw. rewrite Hb. unfold c_memcpy. destruct (Z.eqb_spec (zlen t) 0); [lia|].
  assert (Hread : readn (t ++ r) 0 (zlen t) = Some t).
  { unfold readn. destruct (Z.eqb_spec (zlen t) 0); [lia|]. rewrite zlen_app. pose proof (zlen_nonneg r).
    cbn [Z.leb Z.compare andb]. destruct (Z.leb_spec 0 (zlen t)); [|lia].
    destruct (Z.leb_spec (0 + zlen t) (zlen t + zlen r)); [|lia]. cbn [andb].
    change (Z.to_nat 0) with 0%nat. rewrite skipn_O. now rewrite firstn_zlen. }
  rewrite Hread. rewrite (sr_count _ _ R). rewrite splice_zeros by lia. cbn [ofo rbind].
  eexists. split; [reflexivity|]. replace (zlen t + k + 1 - zlen t) with (k + 1) by lia.
  rewrite app_assoc. apply srep_mk; rewrite ?zlen_app; try lia.
  apply nonul_app. split; auto. apply R.
Qed.

Lemma append_ok s l t m : srep s l -> srep t m -> sbuf t <> None ->
  exists s', s_append s t = Ok s' /\ srep s' (l ++ m).
Proof.
  intros R Rt Hne. unfold s_append.
  destruct (sr_buf _ _ Rt) as [(Hb & _)|(k & Hk & Hb & Hs)]; [congruence|]. rewrite Hb.
  unfold c_strlen. rewrite zeros_succ by auto. rewrite cstr0_ok by apply Rt. cbn [option_map ofo rbind].
  destruct (Z.eq_dec (zlen m) 0) as [E|E].
  - rewrite E. unfold append_buf, inc_slots, c_memcpy.
    rewrite (raw_read s l R). rewrite (sr_count _ _ R). pose proof (zlen_nonneg l).
    apply zlen_0 in E. subst m. rewrite app_nil_r.
    destruct (Z.leb_spec (ssize s) (zlen l + 0)).
    + cbn [rbind]. unfold raw. cbn [sbuf Z.eqb ofo rbind scount ssize].
      eexists. split; [reflexivity|].
      assert (0 <= zlen l * 3 / 2) by (apply Z.div_pos; lia).
      replace (zlen l + 0 + zlen l * 3 / 2 + 1 - zlen l) with (zlen l * 3 / 2 + 1) by lia.
      apply srep_mk; try lia. apply R.
    + cbn [rbind]. unfold raw. cbn [sbuf Z.eqb ofo rbind scount ssize].
      destruct (sr_buf _ _ R) as [(Hb' & -> & Hs')|(k' & Hk' & Hb' & Hs')].
      { rewrite zlen_nil in *. lia. }
      rewrite Hb'. eexists. split; [reflexivity|]. apply srep_mk; try lia. apply R.
  - destruct (append_buf_ok s l m (0 :: zeros k) R (sr_nonul _ _ Rt)) as (s' & E' & R').
    { pose proof (zlen_nonneg m). lia. }
    eauto.
Qed.

Lemma wr_mid (a : list Z) x b c : wr (a ++ x :: b) (zlen a) c = Some (a ++ c :: b).
Proof.
  rewrite wr_some by (unfold zlen; rewrite app_length; simpl; lia). rewrite to_nat_zlen. f_equal.
  rewrite upd_app_r by lia. now rewrite Nat.sub_diag.
Qed.

Lemma append_char_ok s l c : srep s l -> c <> 0 ->
  exists s', s_append_char s c = Ok s' /\ srep s' (l ++ [c]).
Proof.
  intros R Hc0. unfold s_append_char.
  destruct (inc_slots_ok s l 1 R ltac:(lia)) as (s1 & k & E & Hc & Hs & Hk & Hb). rewrite E. cbn [rbind].
  unfold raw. rewrite Hb, Hc. replace (1 + k + 1) with (k + 1 + 1) by lia. rewrite !zeros_succ by lia.
  change (0 :: 0 :: zeros k) with (@app Z [0] (0 :: zeros k)). rewrite app_assoc.
  pose proof (wr_mid (l ++ [0]) 0 (zeros k) 0) as W. rewrite zlen_app in W. change (zlen [0]) with 1 in W.
  rewrite W. cbn [ofo rbind]. rewrite <- app_assoc. cbn [app].
  replace (zlen l + 1 - 1) with (zlen l) by lia. rewrite wr_mid. cbn [ofo rbind].
  eexists. split; [reflexivity|]. change (c :: 0 :: zeros k) with ([c] ++ 0 :: zeros k).
  rewrite app_assoc. rewrite <- zeros_succ by lia.
  apply srep_mk; rewrite ?zlen_app; try (change (zlen [c]) with 1); try lia.
  apply nonul_app. split; [apply R|]. apply nonul_cons. split; auto using nonul_nil.
Qed.

Lemma plus_ok s l t m : srep s l -> srep t m ->
  exists r, s_plus s t = Ok r /\ srep r (l ++ m).
Proof.
  intros R Rt. unfold s_plus.
  assert (H1 : (match sbuf s with None => Ok 0 | Some b => ofo (c_strlen b 0) end) = Ok (zlen l)).
  { destruct (sr_buf _ _ R) as [(Hb & -> & _)|(k & Hk & Hb & _)]; rewrite Hb; auto.
    unfold c_strlen. rewrite zeros_succ, cstr0_ok by (auto; apply R). reflexivity. }
  assert (H2 : (match sbuf t with None => Ok 0 | Some b => ofo (c_strlen b 0) end) = Ok (zlen m)).
  { destruct (sr_buf _ _ Rt) as [(Hb & -> & _)|(k & Hk & Hb & _)]; rewrite Hb; auto.
    unfold c_strlen. rewrite zeros_succ, cstr0_ok by (auto; apply Rt). reflexivity. }
  rewrite H1, H2. cbn [rbind]. pose proof (zlen_nonneg l). pose proof (zlen_nonneg m).
  destruct (Z.ltb_spec 0 (zlen l + zlen m)).
  - assert (E1 : (if zlen l =? 0 then Ok (zeros (zlen l + zlen m + 1))
              else ofo (c_strcpy (zeros (zlen l + zlen m + 1)) 0 (raw s) 0)) = Ok (l ++ zeros (zlen m + 1))).
    { destruct (Z.eqb_spec (zlen l) 0) as [E|E].
      - rewrite E. apply zlen_0 in E. subst. reflexivity.
      - destruct (raw_rep s l R) as (k & _ & ->); [intros ->; apply E; reflexivity|].
        unfold c_strcpy. rewrite cstr0_ok by apply R.
        assert (Hl : zlen (l ++ [0]) = zlen l + 1) by (rewrite zlen_app; reflexivity).
        rewrite splice_zeros0 by lia. cbn [ofo]. rewrite <- app_assoc. f_equal. f_equal.
        rewrite Hl. replace (zlen l + zlen m + 1 - (zlen l + 1)) with (zlen m) by lia.
        cbn [app]. now rewrite zeros_succ. }
    rewrite E1. cbn [rbind].
    assert (E2 : (if zlen m =? 0 then Ok (l ++ zeros (zlen m + 1))
              else ofo (c_strcpy (l ++ zeros (zlen m + 1)) (zlen l) (raw t) 0)) = Ok (l ++ m ++ [0])).
    { destruct (Z.eqb_spec (zlen m) 0) as [E|E].
      - rewrite E. apply zlen_0 in E. subst. reflexivity.
      - destruct (raw_rep t m Rt) as (k & _ & ->); [intros ->; apply E; reflexivity|].
        unfold c_strcpy. rewrite cstr0_ok by apply Rt.
        assert (Hl : zlen (m ++ [0]) = zlen m + 1) by (rewrite zlen_app; reflexivity).
        rewrite splice_zeros by lia. cbn [ofo]. rewrite Hl, Z.sub_diag, zeros_0, app_nil_r. reflexivity. }
    rewrite E2. cbn [rbind]. rewrite app_assoc.
    destruct (s_set_ok (l ++ m) []) as (r & E & Rr & _).
    { apply nonul_app. split; [apply R|apply Rt]. }
    eauto.
  - assert (zlen l = 0) by lia. assert (zlen m = 0) by lia. apply zlen_0 in H4, H5. subst.
    exists s_new. split; auto. apply srep_new.
Qed.

Lemma eq_ok s l t m : srep s l -> srep t m ->
  s_eq s t = Ok (if list_eq_dec Z.eq_dec l m then true else false).
Proof.
  intros R Rt. unfold s_eq, c_streq. rewrite (cstr_cchars s l R), (cstr_cchars t m Rt). reflexivity.
Qed.

(** ** Element access *)
Lemma at_ok s l i : srep s l ->
  s_at s i = if (0 <=? i) && (i <? zlen l) then Ok (nth (Z.to_nat i) l 0) else Thr.
Proof.
  intros R. unfold s_at. rewrite (sr_count _ _ R).
  destruct (Z.ltb_spec i 0), (Z.leb_spec (zlen l) i), (Z.leb_spec 0 i), (Z.ltb_spec i (zlen l)); try lia; cbn [orb andb]; auto.
  destruct (raw_rep s l R) as (k & _ & ->). { intros ->. rewrite zlen_nil in *. lia. }
  rewrite rd_nth by lia. rewrite nth_error_app1 by (unfold zlen in *; lia).
  rewrite (nth_error_nth' l 0) by (unfold zlen in *; lia). reflexivity.
Qed.

Lemma nonul_upd l i c : nonul l -> c <> 0 -> nonul (upd l i c).
Proof.
  revert i; induction l as [|x l IH]; intros i H Hc; simpl; auto.
  apply nonul_cons in H. destruct H. destruct i; apply nonul_cons; auto.
Qed.
Lemma zlen_upd {A} (l : list A) i c : zlen (upd l i c) = zlen l.
Proof. unfold zlen. now rewrite upd_length. Qed.

Lemma put_ok s l i c : srep s l -> c <> 0 ->
  if (0 <=? i) && (i <? zlen l)
  then exists s', s_put s i c = Ok s' /\ srep s' (upd l (Z.to_nat i) c)
  else s_put s i c = Thr.
Proof.
  intros R Hc. unfold s_put. rewrite (sr_count _ _ R).
  destruct (Z.ltb_spec i 0), (Z.leb_spec (zlen l) i), (Z.leb_spec 0 i), (Z.ltb_spec i (zlen l)); try lia; cbn [orb andb]; auto.
  assert (l <> []). { intros ->. rewrite zlen_nil in *. lia. }
  destruct (sr_buf _ _ R) as [(_ & -> & _)|(k & Hk & Hb & Hs)]; [congruence|].
  unfold raw. rewrite Hb.
  rewrite wr_some by (unfold zlen in *; rewrite app_length; lia). cbn [ofo rbind].
  rewrite upd_app_l by (unfold zlen in *; lia).
  eexists. split; [reflexivity|]. apply srep_mk; rewrite ?zlen_upd; auto.
  apply nonul_upd; auto. apply R.
Qed.

(** ** Substrings *)
Lemma strncpy_gen d e x m y k j : nonul (m ++ y) -> zlen e = zlen m ->
  c_strncpy (d ++ e ++ k) (zlen d) (x ++ m ++ y ++ 0 :: zeros j) (zlen x) (zlen m) = Some (d ++ m ++ k).
Proof.
  intros Hn He. unfold c_strncpy. destruct (Z.eqb_spec (zlen m) 0) as [E|E].
  - rewrite E in He. apply zlen_0 in E, He. subst. reflexivity.
  - pose proof (zlen_nonneg x). pose proof (zlen_nonneg m).
    destruct (Z.leb_spec 0 (zlen x)); [|lia].
    rewrite !zlen_app. pose proof (zlen_nonneg y). pose proof (zlen_nonneg (0 :: zeros j)).
    destruct (Z.leb_spec (zlen x) (zlen x + (zlen m + (zlen y + zlen (0 :: zeros j))))); [|lia].
    destruct (Z.leb_spec 0 (zlen m)); [|lia]. cbn [andb].
    rewrite skipn_zlen. rewrite app_assoc. rewrite takestr_ok.
    + rewrite to_nat_zlen. rewrite firstn_app, Nat.sub_diag, firstn_all, firstn_O, app_nil_r.
      rewrite Z.sub_diag, zeros_0, app_nil_r. now apply splice_ok.
    + auto.
    + unfold zlen. rewrite app_length. lia.
Qed.

Lemma getSub_ok s a m b : srep s (a ++ m ++ b) ->
  exists r, s_getSubstring s (zlen a) (zlen m) = Ok r /\ srep r m /\ sbuf r <> None.
Proof.
  intros R. unfold s_getSubstring. rewrite (sr_count _ _ R).
  pose proof (zlen_nonneg m). pose proof (zlen_nonneg a). pose proof (zlen_nonneg b).
  destruct (Z.eqb_spec (zlen m) (-1)); [lia|]. destruct (Z.ltb_spec (zlen m) 0); [lia|].
  rewrite !zlen_app. destruct (Z.ltb_spec (zlen a + (zlen m + zlen b)) (zlen a + zlen m)); [lia|].
  pose proof (sr_nonul _ _ R) as Hn. apply nonul_app in Hn. destruct Hn as [_ Hn].
  pose proof Hn as Hm. apply nonul_app in Hm. destruct Hm as [Hm _].
  assert (E : c_strncpy (zeros (zlen m + 1)) 0 (raw s) (zlen a) (zlen m) = Some (m ++ zeros 1)).
  { destruct (Z.eq_dec (zlen m) 0) as [E|E].
    - rewrite E. apply zlen_0 in E. subst. reflexivity.
    - destruct (raw_rep s _ R) as (k & _ & ->).
      { intros Hnil. apply app_eq_nil in Hnil. destruct Hnil as [_ Hnil]. apply app_eq_nil in Hnil.
        destruct Hnil as [-> _]. apply E. reflexivity. }
      rewrite <- !app_assoc. rewrite zeros_app by lia.
      apply (strncpy_gen [] (zeros (zlen m)) a m b (zeros 1)); auto. now rewrite zlen_zeros. }
  rewrite E. cbn [ofo rbind]. apply s_set_zeros; auto. lia.
Qed.

Lemma getSub_throw s l pos len : srep s l -> len <> -1 -> (len < 0 \/ zlen l < pos + len) ->
  s_getSubstring s pos len = Thr.
Proof.
  intros R H1 H2. unfold s_getSubstring. rewrite (sr_count _ _ R).
  destruct (Z.eqb_spec len (-1)); [lia|]. destruct (Z.ltb_spec len 0); auto.
  destruct (Z.ltb_spec (zlen l) (pos + len)); auto. lia.
Qed.

Lemma raw_nonempty s l : srep s l -> zlen l <> 0 -> exists k, 0 <= k /\ raw s = l ++ 0 :: zeros k.
Proof. intros R H. apply raw_rep; auto. intros ->. apply H. reflexivity. Qed.

(** copy of the first [zlen a] characters into a fresh buffer *)
Lemma head_copy s a b n : srep s (a ++ b) -> zlen b <> 0 -> zlen a <= n ->
  (if 0 <? zlen a then ofo (c_strncpy (zeros n) 0 (raw s) 0 (zlen a)) else Ok (zeros n))
  = Ok (a ++ zeros (n - zlen a)).
Proof.
  intros R Hb Hn. pose proof (zlen_nonneg a). destruct (Z.ltb_spec 0 (zlen a)).
  - destruct (raw_nonempty s _ R) as (k & _ & ->). { rewrite zlen_app. pose proof (zlen_nonneg b). lia. }
    replace n with (zlen a + (n - zlen a)) at 1 by lia. rewrite zeros_app by lia.
    rewrite <- app_assoc.
    pose proof (strncpy_gen [] (zeros (zlen a)) [] a b (zeros (n - zlen a)) k) as W.
    cbn [app] in W. rewrite zlen_nil in W. rewrite W; auto. apply R. now rewrite zlen_zeros.
  - assert (E : zlen a = 0) by lia. rewrite E, Z.sub_0_r. apply zlen_0 in E. now subst.
Qed.

Lemma strcat_ok a n t : nonul t -> zlen t < n ->
  c_strcat (a ++ zeros n) (zlen a) (t ++ [0]) = Some (a ++ t ++ zeros (n - zlen t)).
Proof.
  intros Ht Hn. pose proof (zlen_nonneg t). unfold c_strcat, c_strlen.
  replace n with (n - 1 + 1) by lia. rewrite (zeros_succ (n - 1)) by lia.
  pose proof (cstr_ok a [] (zeros (n - 1)) nonul_nil) as W. cbn [app] in W. rewrite W. clear W. cbn [option_map]. change (zlen (@nil Z)) with 0. rewrite Z.add_0_r.
  rewrite <- zeros_succ by lia.
  unfold c_strcpy. rewrite cstr0_ok by auto.
  assert (zlen (t ++ [0]) = zlen t + 1) by (rewrite zlen_app; reflexivity).
  rewrite splice_zeros by lia. f_equal. f_equal. rewrite <- app_assoc. f_equal.
  change ([0] ++ zeros (n - 1 + 1 - zlen (t ++ [0]))) with (0 :: zeros (n - 1 + 1 - zlen (t ++ [0]))).
  rewrite <- zeros_succ by lia. f_equal. lia.
Qed.
Lemma strcat_cchars a n s t : srep s t -> zlen t < n ->
  c_strcat (a ++ zeros n) (zlen a) (cchars s) = Some (a ++ t ++ zeros (n - zlen t)).
Proof.
  intros R Hn. rewrite <- (strcat_ok a n t) by (auto; apply R).
  unfold c_strcat, c_strcpy. rewrite (cstr_cchars s t R), cstr0_ok by apply R. reflexivity.
Qed.

Lemma strcpy_tail s a b c n : srep s (a ++ b) -> zlen b = zlen b -> a ++ b <> [] -> zlen b < n ->
  c_strcpy (c ++ zeros n) (zlen c) (raw s) (zlen a) = Some (c ++ b ++ zeros (n - zlen b)).
Proof.
  intros R _ Hne Hn. destruct (raw_rep s _ R Hne) as (k & _ & ->). pose proof (zlen_nonneg b).
  unfold c_strcpy. pose proof (sr_nonul _ _ R) as Hnn. apply nonul_app in Hnn.
  rewrite <- app_assoc. rewrite cstr_ok by tauto.
  assert (zlen (b ++ [0]) = zlen b + 1) by (rewrite zlen_app; reflexivity).
  rewrite splice_zeros by lia. f_equal. f_equal. rewrite <- app_assoc. f_equal.
  change ([0] ++ ?x) with (0 :: x). rewrite H0.
  replace (n - zlen b) with (n - (zlen b + 1) + 1) by lia. now rewrite zeros_succ by lia.
Qed.

Lemma setSub_ok s a m b t x : srep s (a ++ m ++ b) -> srep t x -> m ++ b <> [] -> a ++ x ++ b <> [] ->
  exists s', s_setSubstring s (zlen a) (zlen m) t = Ok s' /\ srep s' (a ++ x ++ b).
Proof.
  intros R Rt H1 H2. unfold s_setSubstring. rewrite (sr_count _ _ R), (sr_count _ _ Rt).
  pose proof (zlen_nonneg a). pose proof (zlen_nonneg m). pose proof (zlen_nonneg b). pose proof (zlen_nonneg x).
  assert (Hmb : zlen (m ++ b) <> 0) by (intros E; apply zlen_0 in E; congruence).
  assert (Hnew : zlen (a ++ x ++ b) <> 0) by (intros E; apply zlen_0 in E; congruence).
  rewrite !zlen_app in *.
  destruct (Z.leb_spec (zlen a + (zlen m + zlen b)) (zlen a)); [lia|].
  destruct (Z.leb_spec (zlen a + (zlen m + zlen b) + (zlen x - zlen m)) 0); [lia|].
  set (n := zlen a + (zlen m + zlen b) + (zlen x - zlen m)) in *.
  rewrite (head_copy s a (m ++ b)); auto; [|now rewrite zlen_app|lia]. cbn [rbind].
  rewrite (strcat_cchars a _ t x); auto; [|lia]. cbn [ofo rbind].
  rewrite app_assoc. rewrite app_assoc in R.
  replace (zlen a + zlen x) with (zlen (a ++ x)) by (rewrite zlen_app; lia).
  replace (zlen a + zlen m) with (zlen (a ++ m)) by (rewrite zlen_app; lia).
  rewrite (strcpy_tail s (a ++ m) b (a ++ x)); auto.
  - cbn [ofo rbind]. eexists. split; [reflexivity|].
    replace (n + 1 - zlen a - zlen x - zlen b) with (0 + 1) by lia.
    rewrite !app_assoc. apply srep_mk; rewrite ?zlen_app; try lia.
    rewrite !nonul_app. pose proof (sr_nonul _ _ R) as Hn. rewrite !nonul_app in Hn. pose proof (sr_nonul _ _ Rt).
    tauto.
  - intros Hnil. rewrite <- app_assoc in Hnil. apply app_eq_nil in Hnil. destruct Hnil. congruence.
  - lia.
Qed.

Lemma setSub_empty s m t : srep s m -> srep t [] -> s_setSubstring s 0 (zlen m) t = Thr.
Proof.
  intros R Rt. unfold s_setSubstring. rewrite (sr_count _ _ R), (sr_count _ _ Rt). change (zlen (@nil Z)) with 0.
  destruct (Z.leb_spec (zlen m) 0); auto. destruct (Z.leb_spec (zlen m + (0 - zlen m)) 0); auto. lia.
Qed.

Lemma insert_char_ok s a b c : srep s (a ++ b) -> b <> [] -> c <> 0 ->
  exists s', s_insert_char s (zlen a) c = Ok s' /\ srep s' (a ++ c :: b).
Proof.
  intros R Hb Hc. unfold s_insert_char. rewrite (sr_count _ _ R), zlen_app.
  pose proof (zlen_nonneg a). pose proof (zlen_nonneg b).
  assert (Hzb : zlen b <> 0) by (intros E; apply zlen_0 in E; congruence).
  destruct (Z.leb_spec (zlen a + zlen b) (zlen a)); [lia|].
  rewrite (head_copy s a b); auto; [|lia]. cbn [rbind].
  replace (zlen a + zlen b + 1 + 1 - zlen a) with (zlen b + 1 + 1) by lia.
  rewrite (zeros_succ (zlen b + 1)) by lia. rewrite wr_mid. cbn [ofo rbind].
  replace (a ++ c :: zeros (zlen b + 1)) with ((a ++ [c]) ++ zeros (zlen b + 1)) by (rewrite <- app_assoc; reflexivity).
  replace (zlen a + 1) with (zlen (a ++ [c])) by (rewrite zlen_app; reflexivity).
  rewrite (strcpy_tail s a b (a ++ [c])); auto.
  - cbn [ofo rbind]. eexists. split; [reflexivity|].
    replace (zlen b + 1 - zlen b) with (0 + 1) by lia.
    change (a ++ c :: b) with (a ++ [c] ++ b). rewrite !app_assoc.
    apply srep_mk; rewrite ?zlen_app; try (change (zlen [c]) with 1); try lia.
    pose proof (sr_nonul _ _ R) as Hn. rewrite !nonul_app in *. repeat split; try tauto.
    apply nonul_cons; auto using nonul_nil.
  - intros Hnil. apply app_eq_nil in Hnil. destruct Hnil. congruence.
  - lia.
Qed.

Lemma insert_ok s a b t x : srep s (a ++ b) -> b <> [] -> srep t x ->
  exists s', s_insert s (zlen a) t = Ok s' /\ srep s' (a ++ x ++ b).
Proof.
  intros R Hb Rt. unfold s_insert. rewrite (sr_count _ _ R), (sr_count _ _ Rt), zlen_app.
  pose proof (zlen_nonneg a). pose proof (zlen_nonneg b). pose proof (zlen_nonneg x).
  assert (Hzb : zlen b <> 0) by (intros E; apply zlen_0 in E; congruence).
  destruct (Z.leb_spec (zlen a + zlen b) (zlen a)); [lia|].
  rewrite (head_copy s a b); auto; [|lia]. cbn [rbind].
  rewrite (strcat_cchars a _ t x); auto; [|lia]. cbn [ofo rbind].
  replace (zlen a + zlen b + zlen x + 1 - zlen a - zlen x) with (zlen b + 1) by lia.
  replace (zlen a + zlen b - zlen a) with (zlen b) by lia.
  rewrite zeros_app by lia. rewrite app_assoc.
  replace (zlen a + zlen x) with (zlen (a ++ x)) by (rewrite zlen_app; lia).
  destruct (raw_nonempty s _ R) as (k & _ & ->). { rewrite zlen_app. lia. }
  rewrite <- (app_assoc a b).
  change (b ++ 0 :: zeros k) with (b ++ [] ++ 0 :: zeros k).
  rewrite (strncpy_gen (a ++ x) (zeros (zlen b)) a b [] (zeros 1) k).
  - cbn [ofo rbind]. eexists. split; [reflexivity|].
    replace (zeros 1) with (zeros (0 + 1)) by reflexivity.
    rewrite !app_assoc. apply srep_mk; rewrite ?zlen_app; try lia.
    pose proof (sr_nonul _ _ R) as Hn. pose proof (sr_nonul _ _ Rt). rewrite !nonul_app in *. tauto.
  - rewrite app_nil_r. pose proof (sr_nonul _ _ R) as Hn. rewrite nonul_app in Hn. tauto.
  - now rewrite zlen_zeros.
Qed.

Lemma readn_ok a m b : readn (a ++ m ++ b) (zlen a) (zlen m) = Some m.
Proof.
  unfold readn. destruct (Z.eqb_spec (zlen m) 0) as [E|E]; [apply zlen_0 in E; now subst|].
  pose proof (zlen_nonneg a). pose proof (zlen_nonneg m). pose proof (zlen_nonneg b).
  destruct (Z.leb_spec 0 (zlen a)); [|lia]. destruct (Z.leb_spec 0 (zlen m)); [|lia].
  rewrite !zlen_app. destruct (Z.leb_spec (zlen a + zlen m) (zlen a + (zlen m + zlen b))); [|lia].
  cbn [andb]. rewrite skipn_zlen. now rewrite firstn_zlen.
Qed.

Lemma erase_ok s a m b : srep s (a ++ m ++ b) -> m ++ b <> [] ->
  exists s', s_erase s (zlen a) (zlen m) = Ok s' /\ srep s' (a ++ b) /\ sbuf s' <> None.
Proof.
  intros R Hne. unfold s_erase. rewrite (sr_count _ _ R), !zlen_app.
  pose proof (zlen_nonneg a). pose proof (zlen_nonneg b). pose proof (zlen_nonneg m).
  assert (Hmb : zlen (m ++ b) <> 0) by (intros E; apply zlen_0 in E; congruence). rewrite zlen_app in Hmb.
  destruct (Z.leb_spec (zlen a + (zlen m + zlen b)) (zlen a)); [lia|].
  destruct (Z.ltb_spec (zlen a + (zlen m + zlen b)) (zlen a + zlen m)); [lia|].
  destruct (raw_nonempty s _ R) as (k & _ & ->). { rewrite !zlen_app. lia. }
  replace (zlen a + (zlen m + zlen b) - zlen m + 1) with (zlen a + (zlen b + 1)) by lia.
  assert (E1 : (if 0 <? zlen a
      then ofo (c_memcpy (zeros (zlen a + (zlen b + 1))) 0 ((a ++ m ++ b) ++ 0 :: zeros k) 0 (zlen a))
      else Ok (zeros (zlen a + (zlen b + 1)))) = Ok (a ++ zeros (zlen b + 1))).
  { destruct (Z.ltb_spec 0 (zlen a)).
    - unfold c_memcpy. destruct (Z.eqb_spec (zlen a) 0); [lia|]. rewrite <- app_assoc.
      pose proof (readn_ok [] a ((m ++ b) ++ 0 :: zeros k)) as W. cbn [app] in W. rewrite zlen_nil in W.
      rewrite W. rewrite zeros_app by lia.
      pose proof (splice_ok [] (zeros (zlen a)) (zeros (zlen b + 1)) a) as Hs. cbn [app] in Hs.
      rewrite zlen_nil in Hs. rewrite Hs; auto. now rewrite zlen_zeros.
    - assert (E : zlen a = 0) by lia. rewrite E. apply zlen_0 in E. subst. reflexivity. }
  rewrite E1. cbn [rbind].
  replace (zlen a + (zlen m + zlen b) - zlen m - zlen a) with (zlen b) by lia.
  assert (E2 : c_memcpy (a ++ zeros (zlen b + 1)) (zlen a) ((a ++ m ++ b) ++ 0 :: zeros k) (zlen a + zlen m) (zlen b)
     = Some (a ++ b ++ zeros (0 + 1))).
  { unfold c_memcpy. destruct (Z.eqb_spec (zlen b) 0) as [E|E].
    - rewrite E. apply zlen_0 in E. subst. reflexivity.
    - replace ((a ++ m ++ b) ++ 0 :: zeros k) with ((a ++ m) ++ b ++ 0 :: zeros k) by (now rewrite <- !app_assoc).
      replace (zlen a + zlen m) with (zlen (a ++ m)) by (rewrite zlen_app; lia).
      rewrite readn_ok. rewrite zeros_app by lia. rewrite splice_ok; auto. now rewrite zlen_zeros. }
  rewrite E2. cbn [ofo rbind]. eexists. split; [reflexivity|]. split; [|discriminate].
  rewrite app_assoc. apply srep_mk; rewrite ?zlen_app; try lia.
  pose proof (sr_nonul _ _ R) as Hn. rewrite !nonul_app in *. tauto.
Qed.

(** ** Searching *)
Lemma is_prefix_spec p l : is_prefix p l = true <-> exists b, l = p ++ b.
Proof.
  revert l; induction p as [|x p IH]; intros l; cbn [is_prefix].
  - split; auto. intros _. exists l. reflexivity.
  - destruct l as [|y l]; [split; [discriminate|intros [b H]; discriminate]|].
    rewrite andb_true_iff, IH, Z.eqb_eq. split.
    + intros [-> [b ->]]. exists b. reflexivity.
    + intros [b H]. injection H as -> ->. eauto.
Qed.

Lemma occurs_at_0 p l : occurs_at p l 0 <-> is_prefix p l = true.
Proof.
  rewrite is_prefix_spec. split.
  - intros (a & b & -> & H). destruct a; [|discriminate]. exists b. reflexivity.
  - intros [b ->]. exists [], b. auto.
Qed.
Lemma occurs_at_S p x l i : occurs_at p (x :: l) (S i) <-> occurs_at p l i.
Proof.
  split.
  - intros (a & b & H & Hl). destruct a as [|y a]; [discriminate|]. injection H as -> ->.
    exists a, b. split; auto.
  - intros (a & b & -> & <-). exists (x :: a), b. auto.
Qed.
Lemma occurs_at_nil p i : occurs_at p [] i <-> p = [] /\ i = 0%nat.
Proof.
  split.
  - intros (a & b & H & <-). destruct a; [|discriminate]. destruct p; [|discriminate]. auto.
  - intros [-> ->]. exists [], []. auto.
Qed.

Lemma index_sub_some p l k : index_sub p l = Some k ->
  0 <= k /\ occurs_at p l (Z.to_nat k) /\ forall i, (i < Z.to_nat k)%nat -> ~ occurs_at p l i.
Proof.
  revert k; induction l as [|x l IH]; intros k; cbn [index_sub].
  - destruct (is_prefix p []) eqn:E; [|discriminate]. intros H; injection H as <-.
    split; [lia|]. split; [now apply occurs_at_0|]. intros i Hi. cbn in Hi. lia.
  - destruct (is_prefix p (x :: l)) eqn:E.
    + intros H; injection H as <-. split; [lia|]. split; [now apply occurs_at_0|]. intros i Hi. cbn in Hi. lia.
    + destruct (index_sub p l) as [k'|]; [|discriminate]. cbn [option_map]. intros H.
      assert (k = 1 + k') by congruence; subst k. clear H.
      destruct (IH k' eq_refl) as (H0 & H1 & H2). split; [lia|].
      replace (Z.to_nat (1 + k')) with (S (Z.to_nat k')) by lia. split; [now apply occurs_at_S|].
      intros [|i] Hi; [rewrite occurs_at_0; congruence|]. rewrite occurs_at_S. apply H2. lia.
Qed.
Lemma index_sub_none p l : index_sub p l = None -> ~ occurs p l.
Proof.
  induction l as [|x l IH]; cbn [index_sub].
  - destruct (is_prefix p []) eqn:E; [discriminate|]. intros _ [i O]. apply occurs_at_nil in O.
    destruct O as [-> _]. discriminate.
  - destruct (is_prefix p (x :: l)) eqn:E; [discriminate|]. destruct (index_sub p l); [discriminate|].
    intros _ [[|i] O]; [apply occurs_at_0 in O; congruence|]. apply (IH eq_refl). exists i. exact (proj1 (occurs_at_S _ _ _ _) O).
Qed.

Lemma rd_end (a : list Z) x b : rd (a ++ x :: b) (zlen a) = Some x.
Proof.
  pose proof (zlen_nonneg a). rewrite rd_nth by lia. rewrite to_nat_zlen.
  rewrite nth_error_app2 by lia. now rewrite Nat.sub_diag.
Qed.

Lemma match_at_ok p2 : forall p1 a c rp rl, nonul p2 ->
  match_at (length p2) (p1 ++ p2 ++ rp) (a ++ p1 ++ c ++ 0 :: rl) (zlen a) (zlen p1) = Ok (is_prefix p2 c).
Proof.
  induction p2 as [|x p2 IH]; intros p1 a c rp rl Hp; cbn [match_at length is_prefix]; auto.
  apply nonul_cons in Hp. destruct Hp as [Hx Hp].
  change ((x :: p2) ++ rp) with (x :: p2 ++ rp). rewrite rd_end. cbn [ofo rbind].
  rewrite <- zlen_app. destruct c as [|y c].
  - cbn [app]. rewrite app_assoc, rd_end. cbn [ofo rbind]. destruct (Z.eqb_spec x 0); [lia|]. auto.
  - cbn [app]. replace (a ++ p1 ++ y :: c ++ 0 :: rl) with ((a ++ p1) ++ y :: c ++ 0 :: rl) by now rewrite app_assoc.
    rewrite rd_end. cbn [ofo rbind]. destruct (Z.eqb_spec x y) as [->|]; auto. cbn [andb].
    replace (zlen p1 + 1) with (zlen (p1 ++ [y])) by (rewrite zlen_app; reflexivity).
    rewrite <- (IH (p1 ++ [y]) a c rp rl Hp). f_equal; rewrite <- !app_assoc; reflexivity.
Qed.

Lemma find_loop_ok s p rp c : forall a, srep s (a ++ c) -> c <> [] -> nonul p ->
  forall fuel, (length c <= fuel)%nat ->
  find_loop fuel (zlen p) (p ++ rp) s (zlen a)
  = Ok (match index_sub p c with Some k => zlen a + k | None => -1 end).
Proof.
  induction c as [|x c IH]; intros a R Hne Hp fuel Hf; [congruence|].
  destruct fuel as [|f]; [cbn in Hf; lia|]. cbn [find_loop].
  destruct (raw_nonempty s _ R) as (k & _ & Hraw).
  { rewrite zlen_app, zlen_cons. pose proof (zlen_nonneg a). pose proof (zlen_nonneg c). lia. }
  rewrite Hraw, to_nat_zlen. rewrite <- app_assoc.
  pose proof (match_at_ok p [] a (x :: c) rp (zeros k) Hp) as W. cbn [app] in W. rewrite zlen_nil in W.
  cbn [app]. rewrite W. cbn [rbind]. cbn [index_sub].
  destruct (is_prefix p (x :: c)) eqn:E; [now rewrite Z.add_0_r|].
  rewrite (sr_count _ _ R), zlen_app, zlen_cons.
  destruct c as [|y c].
  - destruct (Z.ltb_spec (zlen a + 1) (zlen a + (zlen (@nil Z) + 1))); [unfold zlen in *; cbn in *; lia|].
    cbn [index_sub]. destruct p; [discriminate|]. reflexivity.
  - pose proof (zlen_nonneg c). destruct (Z.ltb_spec (zlen a + 1) (zlen a + (zlen (y :: c) + 1))); [|rewrite zlen_cons in *; lia].
    replace (zlen a + 1) with (zlen (a ++ [x])) by (rewrite zlen_app; reflexivity).
    rewrite IH; auto; [|now rewrite <- app_assoc|discriminate|cbn in *; lia].
    rewrite zlen_app. change (zlen [x]) with 1. destruct (index_sub p (y :: c)); cbn [option_map]; auto.
    f_equal. lia.
Qed.

(** What [find] computes on a valid string, whatever the start position asked for. *)
Lemma index_sub_len p l k : index_sub p l = Some k -> 0 <= k /\ k + zlen p <= zlen l.
Proof.
  intros H. apply index_sub_some in H. destruct H as (H0 & (a & b & E & Ha) & _). split; auto.
  subst l. rewrite !zlen_app. pose proof (zlen_nonneg b). unfold zlen at 2. lia.
Qed.

Lemma find_ok s l t p pos : srep s l -> srep t p -> 0 <= pos < zlen l ->
  s_find s t pos = Ok (match index_sub p l with Some k => k | None => -1 end).
Proof.
  intros R Rt Hpos. unfold s_find. rewrite (strlen_cchars t p Rt). cbn [ofo rbind].
  rewrite (sr_count _ _ R). destruct (Z.ltb_spec pos (zlen l)); [|lia]. cbn [andb].
  destruct (cchars_rep t p Rt) as (k & _ & Ht).
  destruct (Z.leb_spec (zlen p) (zlen l)).
  - rewrite Ht. pose proof (find_loop_ok s p (0 :: zeros k) l [] R) as W. rewrite zlen_nil in W.
    rewrite W; try (rewrite to_nat_zlen; lia).
    + reflexivity.
    + intros ->. rewrite zlen_nil in *. lia.
    + apply Rt.
  - destruct (index_sub p l) as [j|] eqn:E; auto. apply index_sub_len in E. lia.
Qed.
Lemma find_out s l t p pos : srep s l -> srep t p -> zlen l <= pos -> s_find s t pos = Ok (-1).
Proof.
  intros R Rt Hpos. unfold s_find. rewrite (strlen_cchars t p Rt). cbn [ofo rbind].
  rewrite (sr_count _ _ R). destruct (Z.ltb_spec pos (zlen l)); [lia|]. reflexivity.
Qed.

Lemma find_spec s l t p : srep s l -> srep t p -> (l = [] -> p <> []) ->
  exists k, s_find s t 0 = Ok k /\
   ((k = -1 /\ ~ occurs p l) \/
    (0 <= k /\ occurs_at p l (Z.to_nat k) /\ forall i, (i < Z.to_nat k)%nat -> ~ occurs_at p l i)).
Proof.
  intros R Rt Hc. destruct l as [|x l].
  - exists (-1). split; [eapply find_out; eauto; rewrite zlen_nil; lia|]. left. split; auto.
    intros [i O]. apply occurs_at_nil in O. destruct O as [-> _]. now apply Hc.
  - rewrite (find_ok s (x :: l) t p 0 R Rt).
    + eexists. split; [reflexivity|]. destruct (index_sub p (x :: l)) as [k|] eqn:E.
      * right. now apply index_sub_some in E.
      * left. split; auto. now apply index_sub_none.
    + rewrite zlen_cons. pose proof (zlen_nonneg l). lia.
Qed.

(** *** findLastOf *)
Lemma in_set_ok p2 c : forall p1 rp,
  in_set (length p2) (p1 ++ p2 ++ rp) (zlen p1) c = Ok (existsb (fun x => x =? c) p2).
Proof.
  induction p2 as [|x p2 IH]; intros p1 rp; cbn [in_set length existsb]; auto.
  change ((x :: p2) ++ rp) with (x :: p2 ++ rp). rewrite rd_end. cbn [ofo rbind].
  destruct (x =? c); auto. cbn [orb]. rewrite <- (IH (p1 ++ [x]) rp).
  f_equal; [now rewrite <- app_assoc|rewrite zlen_app; reflexivity].
Qed.

Lemma last_loop_ok s p rp : forall a x b, srep s (a ++ x :: b) ->
  forall fuel, (length a < fuel)%nat ->
  exists k, last_loop fuel (zlen p) (p ++ rp) s (zlen a) = Ok k /\
   ((k = -1 /\ forall y, In y (a ++ [x]) -> ~ In y p) \/
    (exists u y v, a ++ [x] = u ++ y :: v /\ k = zlen u /\ In y p /\ forall z, In z v -> ~ In z p)).
Proof.
  intros a. induction a as [|z a IH] using rev_ind; intros x b R fuel Hf.
  - destruct fuel as [|f]; [lia|]. cbn [last_loop].
    destruct (raw_nonempty s _ R) as (k & _ & Hraw).
    { cbn [app]. rewrite zlen_cons. pose proof (zlen_nonneg b). lia. }
    rewrite Hraw. rewrite <- app_assoc. cbn [app]. change (rd (x :: b ++ 0 :: zeros k) (zlen [])) with (Some x).
    cbn [ofo rbind]. rewrite to_nat_zlen. pose proof (in_set_ok p x [] rp) as W. cbn [app] in W. rewrite zlen_nil in W.
    rewrite W. cbn [rbind]. destruct (existsb (fun x0 => x0 =? x) p) eqn:E.
    + eexists. split; [reflexivity|]. right. exists [], x, []. repeat split; auto.
      apply existsb_exists in E. destruct E as (y & Hy & E). apply Z.eqb_eq in E. now subst.
    + rewrite zlen_nil. cbn. eexists. split; [reflexivity|]. left. split; auto. intros y [<-|[]] Hin.
      assert (existsb (fun x0 => x0 =? x) p = true); [|congruence]. apply existsb_exists. exists x.
      split; auto. apply Z.eqb_refl.
  - destruct fuel as [|f]; [lia|]. cbn [last_loop].
    destruct (raw_nonempty s _ R) as (k & _ & Hraw).
    { rewrite zlen_app, zlen_cons. pose proof (zlen_nonneg (a ++ [z])). pose proof (zlen_nonneg b). lia. }
    rewrite Hraw. rewrite <- (app_assoc (a ++ [z])). cbn [app]. rewrite rd_end.
    cbn [ofo rbind]. rewrite to_nat_zlen. pose proof (in_set_ok p x [] rp) as W. cbn [app] in W. rewrite zlen_nil in W.
    rewrite W. cbn [rbind]. destruct (existsb (fun x0 => x0 =? x) p) eqn:E.
    + eexists. split; [reflexivity|]. right. exists (a ++ [z]), x, []. repeat split; auto.
      apply existsb_exists in E. destruct E as (y & Hy & E). apply Z.eqb_eq in E. now subst.
    + assert (Hx : ~ In x p).
      { intros Hin. assert (existsb (fun x0 => x0 =? x) p = true); [|congruence]. apply existsb_exists. exists x.
        split; auto. apply Z.eqb_refl. }
      pose proof (zlen_nonneg a). rewrite zlen_app. change (zlen [z]) with 1.
      replace (zlen a + 1 - 1) with (zlen a) by lia. destruct (Z.leb_spec 0 (zlen a)); [|lia].
      destruct (IH z (x :: b)) with (fuel := f) as (j & Hj & Hs).
      { now rewrite <- app_assoc in R. }
      { rewrite app_length in Hf. cbn in Hf. lia. }
      exists j. split; auto. destruct Hs as [(-> & Hn)|(u & y & v & Huv & -> & Hy & Hv)].
      * left. split; auto. intros y Hy. apply in_app_or in Hy. destruct Hy as [Hy|[<-|[]]]; auto.
      * right. exists u, y, (v ++ [x]). repeat split; auto.
        -- rewrite Huv, <- app_assoc. reflexivity.
        -- intros w Hw. apply in_app_or in Hw. destruct Hw as [Hw|[<-|[]]]; auto.
Qed.

(** ** startsWith, endsWith *)
Lemma startsWith_ok s l t p : srep s l -> srep t p -> s_startsWith s t = Ok (is_prefix p l).
Proof.
  intros R Rt. unfold s_startsWith. rewrite (sr_count _ _ R), (sr_count _ _ Rt).
  destruct (Z.leb_spec (zlen p) (zlen l)).
  - destruct (cchars_rep s l R) as (k & _ & ->). destruct (cchars_rep t p Rt) as (j & _ & ->).
    unfold c_strneq. rewrite to_nat_zlen. unfold zlen in H.
    rewrite takestr_ok by (try apply R; lia). rewrite takestr_ok by (try apply Rt; lia).
    rewrite firstn_all. cbn [ofo]. f_equal.
    destruct (list_eq_dec Z.eq_dec (firstn (length p) l) p) as [E|E].
    + symmetry. apply is_prefix_spec. exists (skipn (length p) l). rewrite <- E at 1. now rewrite firstn_skipn.
    + destruct (is_prefix p l) eqn:Ep; auto. apply is_prefix_spec in Ep. destruct Ep as [b ->].
      exfalso. apply E. rewrite firstn_app, Nat.sub_diag, firstn_all, firstn_O. apply app_nil_r.
  - destruct (is_prefix p l) eqn:Ep; auto. apply is_prefix_spec in Ep. destruct Ep as [b ->].
    rewrite zlen_app in H. pose proof (zlen_nonneg b). lia.
Qed.

Lemma endsWith_ok s l t p : srep s l -> srep t p ->
  exists r, s_endsWith s t = Ok r /\ (r = true <-> exists a, l = a ++ p).
Proof.
  intros R Rt. unfold s_endsWith. rewrite (sr_count _ _ R), (sr_count _ _ Rt).
  destruct (Z.leb_spec (zlen p) (zlen l)).
  - set (n := Z.to_nat (zlen l - zlen p)).
    assert (Hl : l = firstn n l ++ skipn n l) by now rewrite firstn_skipn.
    assert (Hn : zlen (firstn n l) = zlen l - zlen p).
    { unfold n, zlen in *. rewrite firstn_length. lia. }
    unfold c_streq. rewrite (cstr_cchars t p Rt). rewrite <- Hn.
    rewrite (cstr_cchars_at s (firstn n l) (skipn n l)) by now rewrite <- Hl.
    cbn [ofo]. eexists. split; [reflexivity|].
    destruct (list_eq_dec Z.eq_dec (skipn n l) p) as [E|E].
    + split; auto. intros _. exists (firstn n l). now rewrite <- E.
    + split; [discriminate|]. intros [a ->]. exfalso. apply E.
      assert (n = length a). { unfold n, zlen. rewrite app_length. lia. }
      rewrite H0, skipn_app, Nat.sub_diag, skipn_all, skipn_O. reflexivity.
  - exists false. split; auto. split; [discriminate|]. intros [a ->]. rewrite zlen_app in H. pose proof (zlen_nonneg a). lia.
Qed.

(** ** split *)
Lemma index_of_split c l k : index_of c l = Some k ->
  exists a b, l = a ++ c :: b /\ zlen a = k /\ ~ In c a.
Proof.
  revert k; induction l as [|x l IH]; intros k; cbn [index_of]; [discriminate|].
  destruct (Z.eqb_spec x c) as [->|Hx].
  - intros H; injection H as <-. exists [], l. auto.
  - destruct (index_of c l) as [j|]; [|discriminate]. cbn [option_map]. intros H.
    assert (k = 1 + j) by congruence; subst k. clear H.
    destruct (IH j eq_refl) as (a & b & -> & <- & Hn). exists (x :: a), b. repeat split; auto.
    + rewrite zlen_cons. lia.
    + intros [E|E]; congruence.
Qed.
Lemma index_of_none c l : index_of c l = None -> ~ In c l.
Proof.
  induction l as [|x l IH]; cbn [index_of]; auto. destruct (Z.eqb_spec x c); [discriminate|].
  destruct (index_of c l); [discriminate|]. intros _ [E|E]; [congruence|]. now apply IH.
Qed.

Lemma split_loop_ok s d : d <> 0 -> forall n a c, (length c <= n)%nat -> srep s (a ++ c) ->
  forall fuel, (n < fuel)%nat ->
  exists ts ls, split_loop fuel s d (zlen a) (zlen a) = Ok ts /\ Forall2 srep ts ls /\
    ls <> [] /\ join [d] ls = c /\ Forall (fun l => ~ In d l) ls.
Proof.
  intros Hd n; induction n as [|n IH]; intros a c Hc R [|fuel] Hf; try lia.
  - destruct c; [|cbn in Hc; lia]. cbn [split_loop]. unfold c_strchr.
    rewrite (cstr_cchars_at s a []); auto. destruct (Z.eqb_spec d 0); [lia|]. cbn [index_of option_map ofo rbind].
    rewrite (sr_count _ _ R), zlen_app, zlen_nil. replace (zlen a + 0 - zlen a) with 0 by lia.
    destruct (getSub_ok s a [] []) as (r & E & Rr & _); [exact R|].
    rewrite zlen_nil in E. rewrite E. cbn [rbind]. exists [r], [[]]. repeat split; auto. discriminate.
  - cbn [split_loop]. unfold c_strchr. rewrite (cstr_cchars_at s a c); auto.
    destruct (Z.eqb_spec d 0); [lia|]. cbn [ofo rbind].
    destruct (index_of d c) as [k|] eqn:E; cbn [option_map].
    + apply index_of_split in E. destruct E as (u & v & -> & <- & Hu).
      replace (zlen a + zlen u - zlen a) with (zlen u) by lia.
      destruct (getSub_ok s a u (d :: v) R) as (r & Er & Rr & _). rewrite Er. cbn [rbind].
      destruct (IH (a ++ u ++ [d]) v) with (fuel := fuel) as (ts & ls & Et & F & Hne & J & N).
      { rewrite app_length in Hc. cbn in Hc. lia. }
      { now rewrite <- !app_assoc. }
      { lia. }
      replace (zlen (a ++ u ++ [d])) with (zlen a + zlen u + 1) in Et by (rewrite !zlen_app; change (zlen [d]) with 1; lia).
      rewrite Et. cbn [rbind]. exists (r :: ts), (u :: ls). repeat split; auto; try discriminate.
      destruct ls as [|l0 ls]; [congruence|]. cbn [join]. cbn [join] in J. rewrite J. reflexivity.
    + rewrite (sr_count _ _ R), zlen_app. replace (zlen a + zlen c - zlen a) with (zlen c) by lia.
      destruct (getSub_ok s a c []) as (r & Er & Rr & _); [now rewrite app_nil_r|].
      rewrite Er. cbn [rbind]. exists [r], [c]. repeat split; auto; try discriminate.
      constructor; auto. now apply index_of_none.
Qed.

Lemma split_char_ok s l d : d <> 0 -> srep s l ->
  exists ts ls, s_split_char s d = Ok ts /\ Forall2 srep ts ls /\
    ls <> [] /\ join [d] ls = l /\ Forall (fun x => ~ In d x) ls.
Proof.
  intros Hd R. unfold s_split_char. rewrite (sr_count _ _ R), to_nat_zlen.
  apply (split_loop_ok s d Hd (length l) [] l); auto.
Qed.

Lemma erase_all s l : srep s l -> l <> [] -> exists s', s_erase s 0 (zlen l) = Ok s' /\ srep s' [] /\ sbuf s' <> None.
Proof.
  intros R H. pose proof (erase_ok s [] l []) as W. cbn [app] in W. rewrite app_nil_r, zlen_nil in W. auto.
Qed.

Lemma split_str_loop_ok t d : srep t d -> d <> [] -> forall n s l, (length l <= n)%nat -> srep s l ->
  forall fuel, (n < fuel)%nat ->
  exists ts ls, split_str_loop fuel s t = Ok ts /\ Forall2 srep ts ls /\ tokens d l ls.
Proof.
  intros Rt Hd n; induction n as [|n IH]; intros s l Hl R [|fuel] Hf; try lia; cbn [split_str_loop];
    destruct (find_spec s l t d R Rt) as (k & Ek & Hk); auto; rewrite Ek; cbn [rbind].
  - destruct l; [|cbn in Hl; lia]. destruct Hk as [(-> & Hno)|(H0 & O & _)].
    + cbn. destruct (s_copy_ok s [] R) as (c & Ec & Rc & _). rewrite Ec. cbn [rbind].
      exists [c], [[]]. repeat split; auto. now constructor.
    + apply occurs_at_nil in O. destruct O. congruence.
  - destruct Hk as [(-> & Hno)|(H0 & O & Hfirst)].
    + cbn. destruct (s_copy_ok s l R) as (c & Ec & Rc & _). rewrite Ec. cbn [rbind].
      exists [c], [l]. repeat split; auto. now constructor.
    + destruct (Z.eqb_spec k (-1)); [lia|]. destruct O as (a & b & -> & Ha).
      assert (Hk : k = zlen a) by (unfold zlen; lia). subst k.
      destruct (getSub_ok s [] a (d ++ b) R) as (r & Er & Rr & _). rewrite zlen_nil in Er. rewrite Er. cbn [rbind].
      rewrite (sr_count _ _ Rt). rewrite <- zlen_app.
      destruct (erase_ok s [] (a ++ d) b) as (s' & Es & Rs & _).
      { cbn [app]. now rewrite <- app_assoc. }
      { intros H. apply app_eq_nil in H. destruct H as [H _]. apply app_eq_nil in H. destruct H. congruence. }
      rewrite zlen_nil in Es. rewrite Es. cbn [rbind]. cbn [app] in Rs.
      destruct (IH s' b) with (fuel := fuel) as (ts & ls & Et & F & T); auto.
      { rewrite !app_length in Hl. destruct d; [congruence|]. cbn in Hl. lia. }
      { lia. }
      rewrite Et. cbn [rbind]. exists (r :: ts), (a :: ls). split; auto. split; auto.
      constructor; auto. intros i Hi. apply Hfirst. lia.
Qed.

Lemma tokens_join d l ls : tokens d l ls -> join d ls = l /\ ls <> [].
Proof.
  induction 1 as [l H|a b ls H T [J N]]; [split; [reflexivity|discriminate]|].
  split; [|discriminate]. destruct ls; [congruence|]. cbn [join] in *. now rewrite J.
Qed.

Lemma tokens_free d l ls : d <> [] -> tokens d l ls -> Forall (fun x => ~ occurs d x) ls.
Proof.
  intros Hd. induction 1 as [l H|a b ls H T F]; constructor; auto.
  intros [i (u & v & E & Hu)]. apply (H i).
  - rewrite E, !app_length. destruct d; [congruence|]. cbn. lia.
  - exists u, (v ++ d ++ b). split; auto. rewrite E, <- !app_assoc. reflexivity.
Qed.

(** The empty delimiter never leaves the loop on a non-empty string. *)
Lemma split_empty_loops t : srep t [] -> forall fuel s l, srep s l -> l <> [] ->
  split_str_loop fuel s t = Loop.
Proof.
  intros Rt fuel; induction fuel as [|fuel IH]; intros s l R Hl; [reflexivity|]. cbn [split_str_loop].
  rewrite (find_ok s l t [] 0 R Rt).
  - assert (E : index_sub [] l = Some 0) by (destruct l; reflexivity). rewrite E. cbn [rbind Z.eqb].
    destruct (getSub_ok s [] [] l R) as (r & Er & Rr & _). rewrite zlen_nil in Er. rewrite Er. cbn [rbind].
    rewrite (sr_count _ _ Rt), zlen_nil.
    destruct (erase_ok s [] [] l R Hl) as (s' & Es & Rs & _). rewrite zlen_nil in Es.
    change (0 + 0) with 0. rewrite Es. cbn [rbind]. rewrite (IH s' l Rs Hl). reflexivity.
  - pose proof (zlen_nonneg l). assert (zlen l <> 0) by (intros E; apply zlen_0 in E; auto). lia.
Qed.

(** ** Case conversion *)
Lemma wrap_short_id n : 0 <= n <= 32767 -> wrap_short n = n.
Proof. intros H. unfold wrap_short. rewrite Z.mod_small by lia. lia. Qed.

Lemma case_loop_ok f : (forall c, c <> 0 -> f c <> 0) -> forall b a s, srep s (a ++ b) -> zlen (a ++ b) <= 32767 ->
  forall fuel, (length b < fuel)%nat ->
  exists s', case_loop fuel f s (zlen a) = Ok s' /\ srep s' (a ++ map f b).
Proof.
  intros Hf0 b; induction b as [|x b IH]; intros a s R Hlen [|fuel] Hf; try (cbn in Hf; lia); cbn [case_loop].
  - rewrite (sr_count _ _ R), app_nil_r. destruct (Z.ltb_spec (zlen a) (zlen a)); [lia|]. exists s. split; auto.
  - pose proof (zlen_nonneg a). pose proof (zlen_nonneg b). rewrite zlen_app, zlen_cons in Hlen.
    rewrite (sr_count _ _ R), zlen_app, zlen_cons. destruct (Z.ltb_spec (zlen a) (zlen a + (zlen b + 1))); [|lia].
    rewrite (at_ok s _ _ R). rewrite zlen_app, zlen_cons.
    destruct (Z.leb_spec 0 (zlen a)); [|lia]. destruct (Z.ltb_spec (zlen a) (zlen a + (zlen b + 1))); [|lia].
    cbn [andb rbind]. rewrite to_nat_zlen. rewrite nth_middle.
    assert (Hx : x <> 0). { pose proof (sr_nonul _ _ R) as Hn. rewrite nonul_app, nonul_cons in Hn. tauto. }
    pose proof (put_ok s _ (zlen a) (f x) R (Hf0 x Hx)) as P. rewrite zlen_app, zlen_cons in P.
    destruct (Z.leb_spec 0 (zlen a)); [|lia]. destruct (Z.ltb_spec (zlen a) (zlen a + (zlen b + 1))); [|lia].
    cbn [andb] in P. destruct P as (s' & Ep & Rp). rewrite Ep. cbn [rbind].
    rewrite to_nat_zlen, upd_app_r, Nat.sub_diag in Rp by lia. cbn [upd] in Rp.
    rewrite wrap_short_id by lia.
    destruct (IH (a ++ [f x]) s') with (fuel := fuel) as (r & Er & Rr).
    { now rewrite <- app_assoc. }
    { rewrite !zlen_app. change (zlen [f x]) with 1. lia. }
    { cbn in Hf. lia. }
    rewrite zlen_app in Er. change (zlen [f x]) with 1 in Er. exists r. split; auto.
    rewrite <- app_assoc in Rr. exact Rr.
Qed.

(** A string of 32768 or more characters makes the index negative: at() throws. *)
Lemma case_loop_long f : (forall c, c <> 0 -> f c <> 0) -> forall n s l, srep s l -> 32768 <= zlen l ->
  Z.of_nat n <= 32767 -> forall fuel, (S n < fuel)%nat ->
  case_loop fuel f s (32767 - Z.of_nat n) = Thr.
Proof.
  intros Hf0 n; induction n as [|n IH]; intros s l R Hlen Hn fuel Hf.
  all: destruct fuel as [|fuel]; [lia|]; cbn [case_loop];
    match goal with |- context [wrap_short (?j + 1)] => set (i := j) in * end;
    rewrite (sr_count _ _ R); destruct (Z.ltb_spec i (zlen l)); [|lia];
    rewrite (at_ok s _ _ R); destruct (Z.leb_spec 0 i); [|lia]; destruct (Z.ltb_spec i (zlen l)); [|lia];
    cbn [andb rbind].
  all: assert (Hx : nth (Z.to_nat i) l 0 <> 0) by
    (pose proof (sr_nonul _ _ R) as Hnn; unfold nonul in Hnn; rewrite Forall_forall in Hnn; apply Hnn;
     apply nth_In; unfold zlen in *; lia).
  all: pose proof (put_ok s _ i (f (nth (Z.to_nat i) l 0)) R (Hf0 _ Hx)) as P;
    destruct (Z.leb_spec 0 i); [|lia]; destruct (Z.ltb_spec i (zlen l)); [|lia]; cbn [andb] in P;
    destruct P as (s' & Ep & Rp); rewrite Ep; cbn [rbind].
  - replace (wrap_short (i + 1)) with (-32768) by reflexivity.
    destruct fuel as [|fuel]; [lia|]. cbn [case_loop]. rewrite (sr_count _ _ Rp), zlen_upd.
    destruct (Z.ltb_spec (-32768) (zlen l)); [|lia]. rewrite (at_ok s' _ _ Rp). reflexivity.
  - rewrite wrap_short_id by lia. replace (i + 1) with (32767 - Z.of_nat n) by lia.
    apply (IH s' _ Rp); [now rewrite zlen_upd|lia|lia].
Qed.

Lemma lower_nz c : c <> 0 -> lower c <> 0.
Proof. unfold lower. destruct (Z.leb_spec 65 c), (Z.leb_spec c 90); cbn [andb]; lia. Qed.
Lemma upper_nz c : c <> 0 -> upper c <> 0.
Proof. unfold upper. destruct (Z.leb_spec 97 c), (Z.leb_spec c 122); cbn [andb]; lia. Qed.

Lemma case_ok f s l : (forall c, c <> 0 -> f c <> 0) -> srep s l -> zlen l <= 32767 ->
  exists r, (do r0 <- s_copy s; case_loop (S (Z.to_nat (scount s))) f r0 0) = Ok r /\ srep r (map f l).
Proof.
  intros Hf R Hl. destruct (s_copy_ok s l R) as (c & Ec & Rc & _). rewrite Ec. cbn [rbind].
  rewrite (sr_count _ _ R), to_nat_zlen.
  apply (case_loop_ok f Hf l [] c Rc Hl). lia.
Qed.
Lemma case_long f s l : (forall c, c <> 0 -> f c <> 0) -> srep s l -> 32768 <= zlen l ->
  (do r0 <- s_copy s; case_loop (S (Z.to_nat (scount s))) f r0 0) = Thr.
Proof.
  intros Hf R Hl. destruct (s_copy_ok s l R) as (c & Ec & Rc & _). rewrite Ec. cbn [rbind].
  rewrite (sr_count _ _ R).
  assert (HN : exists N, Z.of_nat N = 32767) by (exists (Z.to_nat 32767); lia). destruct HN as [N HN].
  pose proof (case_loop_long f Hf N c l Rc Hl) as W. rewrite HN in W. change (32767 - 32767) with 0 in W.
  apply W; lia.
Qed.

(** ** unescape *)
Lemma rd_mid (a : list Z) x b i : i = zlen a -> rd (a ++ x :: b) i = Some x.
Proof. intros ->. apply rd_end. Qed.

(** What the loop produces from the characters still to be read. *)
Fixpoint unesc (fuel : nat) (l : list Z) : list Z :=
  match fuel with
  | O => []
  | S f =>
    match l with
    | [] => []
    | c :: r =>
      match r with
      | e :: r' =>
        if c =? 92 then
          (if e =? 92 then [92] else if e =? 110 then [10] else if e =? 116 then [9]
           else if e =? 34 then [34] else if e =? 39 then [39] else []) ++ unesc f r'
        else c :: unesc f r
      | [] => [c]
      end
    end
  end.

Lemma unescape_loop_ok : forall n b a k acc m, (length b <= n)%nat -> nonul b -> srep acc m ->
  forall fuel, (n < fuel)%nat ->
  exists r, unescape_loop fuel (a ++ b ++ 0 :: zeros k) (zlen a) (zlen a + zlen b) acc = Ok r /\
    srep r (m ++ unesc fuel b).
Proof.
  intros n; induction n as [|n IH]; intros b a k acc m Hb Hn R [|fuel] Hf; try lia.
  - destruct b; [|cbn in Hb; lia]. cbn [unescape_loop unesc]. rewrite zlen_nil, Z.add_0_r, Z.eqb_refl.
    exists acc. now rewrite app_nil_r.
  - destruct b as [|c b].
    { cbn [unescape_loop unesc]. rewrite zlen_nil, Z.add_0_r, Z.eqb_refl. exists acc. now rewrite app_nil_r. }
    apply nonul_cons in Hn. destruct Hn as [Hc Hn]. pose proof (zlen_nonneg b).
    cbn [unescape_loop]. rewrite zlen_cons. destruct (Z.eqb_spec (zlen a) (zlen a + (zlen b + 1))); [lia|].
    change ((c :: b) ++ 0 :: zeros k) with (c :: b ++ 0 :: zeros k). rewrite rd_end. cbn [ofo rbind].
    assert (Hplain : forall acc1, srep acc1 (m ++ [c]) ->
      exists r, unescape_loop fuel (a ++ c :: b ++ 0 :: zeros k) (zlen a + 1) (zlen a + (zlen b + 1)) acc1 = Ok r /\
        srep r (m ++ c :: unesc fuel b)).
    { intros acc1 R1. destruct (IH b (a ++ [c]) k acc1 (m ++ [c])) with (fuel := fuel) as (r & Er & Rr); auto; try lia.
      { cbn in Hb; lia. }
      rewrite <- !app_assoc in Er. rewrite zlen_app in Er. change (zlen [c]) with 1 in Er. cbn [app] in Er.
      exists r. split; [rewrite <- Er; f_equal; lia|]. now rewrite <- app_assoc in Rr. }
    destruct b as [|e b].
    + rewrite zlen_nil. change (0 + 1) with 1. rewrite Z.eqb_refl. cbn [negb]. rewrite andb_false_r.
      destruct (append_char_ok acc m c R Hc) as (a1 & Ea & Ra). rewrite Ea. cbn [rbind].
      destruct (Hplain a1 Ra) as (r & Er & Rr). rewrite zlen_nil in Er. change (0 + 1) with 1 in Er. cbn [app] in Er.
      cbn [app]. exists r. split; auto. cbn [unesc]. destruct fuel; [lia|]. exact Rr.
    + pose proof (zlen_nonneg b). rewrite zlen_cons.
      destruct (Z.eqb_spec (zlen a + 1) (zlen a + (zlen b + 1 + 1))); [lia|]. cbn [negb]. rewrite andb_true_r.
      cbn [unesc]. destruct (Z.eqb_spec c 92) as [->|Hne].
      * change ((e :: b) ++ 0 :: zeros k) with (e :: b ++ 0 :: zeros k).
        replace (a ++ 92 :: e :: b ++ 0 :: zeros k) with ((a ++ [92]) ++ e :: b ++ 0 :: zeros k) by now rewrite <- app_assoc.
        rewrite (rd_mid (a ++ [92])) by (rewrite zlen_app; reflexivity). cbn [ofo rbind].
        apply nonul_cons in Hn. destruct Hn as [He Hn].
        assert (Hrest : forall acc1 m1, srep acc1 m1 ->
          exists r, unescape_loop fuel ((a ++ [92]) ++ e :: b ++ 0 :: zeros k) (zlen a + 2) (zlen a + (zlen b + 1 + 1)) acc1 = Ok r
            /\ srep r (m1 ++ unesc fuel b)).
        { intros acc1 m1 R1. destruct (IH b ((a ++ [92]) ++ [e]) k acc1 m1) with (fuel := fuel) as (r & Er & Rr); auto; try lia.
          { cbn in Hb; lia. }
          rewrite !zlen_app in Er. change (zlen [92]) with 1 in Er. change (zlen [e]) with 1 in Er.
          exists r. split; auto. rewrite <- Er.
          replace (((a ++ [92]) ++ [e]) ++ b ++ 0 :: zeros k) with ((a ++ [92]) ++ e :: b ++ 0 :: zeros k) by (now rewrite <- !app_assoc).
          f_equal; lia. }
        repeat match goal with
        | |- context [if e =? ?v then _ else _] =>
          destruct (Z.eqb_spec e v);
          [ match goal with |- context [s_append_char acc ?ch] =>
              destruct (append_char_ok acc m ch R ltac:(lia)) as (a1 & Ea & Ra); rewrite Ea; cbn [rbind];
              destruct (Hrest a1 _ Ra) as (r & Er & Rr); exists r; split; auto;
              rewrite <- app_assoc in Rr; exact Rr end |]
        end.
        destruct (Hrest acc m R) as (r & Er & Rr). exists r. split; auto.
      * destruct (append_char_ok acc m c R Hc) as (a1 & Ea & Ra). rewrite Ea. cbn [rbind].
        rewrite zlen_cons in Hplain. exact (Hplain a1 Ra).
Qed.

Lemma unescape_ok s l : srep s l -> exists r, s_unescape s = Ok r /\ srep r (unesc (S (length l)) l).
Proof.
  intros R. unfold s_unescape. destruct (cchars_rep s l R) as (k & _ & ->).
  rewrite (sr_count _ _ R), to_nat_zlen.
  apply (unescape_loop_ok (length l) l [] k s_new []); auto using srep_new. apply R.
Qed.

Lemma unesc_fuel : forall n l f g, (length l <= n)%nat -> (n <= f)%nat -> (n <= g)%nat -> unesc f l = unesc g l.
Proof.
  intros n; induction n as [|n IH]; intros l f g Hl Hf Hg.
  - destruct l; [|cbn in Hl; lia]. now destruct f, g.
  - destruct f as [|f]; [lia|]. destruct g as [|g]; [lia|].
    destruct l as [|c l]; [reflexivity|]. destruct l as [|e l]; [reflexivity|]. cbn [unesc].
    rewrite (IH l f g), (IH (e :: l) f g) by (cbn in *; lia). reflexivity.
Qed.

Lemma escape1_nonempty c : escape1 c <> [].
Proof. unfold escape1. repeat match goal with |- context [if ?x then _ else _] => destruct x end; discriminate. Qed.

Lemma unesc_escape l : forall f, (length (escape l) <= f)%nat -> unesc f (escape l) = l.
Proof.
  induction l as [|c l IH]; intros f Hf; [now destruct f|].
  unfold escape in *. cbn [flat_map] in *. rewrite app_length in Hf.
  assert (Hcase : (escape1 c = [c] /\ c <> 92) \/ exists e, escape1 c = [92; e] /\
     (if e =? 92 then [92] else if e =? 110 then [10] else if e =? 116 then [9]
           else if e =? 34 then [34] else if e =? 39 then [39] else []) = [c]).
  { unfold escape1.
    destruct (Z.eqb_spec c 10); [right; exists 110; subst; auto|].
    destruct (Z.eqb_spec c 9); [right; exists 116; subst; auto|].
    destruct (Z.eqb_spec c 34); [right; exists 34; subst; auto|].
    destruct (Z.eqb_spec c 39); [right; exists 39; subst; auto|].
    destruct (Z.eqb_spec c 92); [right; exists 92; subst; auto|].
    left; auto. }
  destruct Hcase as [(E & Hc)|(e & E & He)]; rewrite E in *; cbn [app length] in *.
  - destruct f as [|f]; [lia|]. cbn [unesc]. destruct (Z.eqb_spec c 92); [lia|].
    destruct (flat_map escape1 l) as [|y r] eqn:Er.
    + destruct l as [|z l]; [reflexivity|]. cbn [flat_map] in Er. apply app_eq_nil in Er. destruct Er as [Er _].
      now apply escape1_nonempty in Er.
    + f_equal. apply IH. lia.
  - destruct f as [|f]; [lia|]. cbn [unesc]. rewrite Z.eqb_refl, He. cbn [app]. f_equal. apply IH. lia.
Qed.

Lemma nonul_escape l : nonul l -> nonul (escape l).
Proof.
  induction l as [|c l IH]; intros H; [constructor|]. apply nonul_cons in H. destruct H as [Hc H].
  unfold escape in *. cbn [flat_map]. apply nonul_app. split; auto. unfold escape1.
  repeat match goal with |- context [if ?x then _ else _] => destruct x end;
    repeat (apply nonul_cons; split; try lia); apply nonul_nil.
Qed.

(** ** replace *)
Lemma strstr_ok s a b t p : srep s (a ++ b) -> srep t p ->
  c_strstr (cchars s) (zlen a) (cchars t) = Some (option_map (Z.add (zlen a)) (index_sub p b)).
Proof.
  intros R Rt. unfold c_strstr. rewrite (cstr_cchars_at s a b R), (cstr_cchars t p Rt). reflexivity.
Qed.

Lemma replaced_nil old new l r : old <> [] -> replaced old new l r -> l = [] -> r = [].
Proof.
  intros Ho H. inversion H; subst; auto. intros E. apply app_eq_nil in E. destruct E as [_ E].
  apply app_eq_nil in E. destruct E. congruence.
Qed.

(** The final string is not empty, so no intermediate string is: setSubstring accepts all. *)
Lemma replace_loop_ok ts old tn new : srep ts old -> srep tn new -> old <> [] ->
  forall n b a s r, (length b <= n)%nat -> srep s (a ++ b) -> replaced old new b r -> a ++ r <> [] ->
  forall fuel, (n < fuel)%nat ->
  exists s', replace_loop fuel s ts tn (zlen a) = Ok s' /\ srep s' (a ++ r).
Proof.
  intros Ro Rn Ho n; induction n as [|n IH]; intros b a s r Hb R HR Hne [|fuel] Hf; try lia; cbn [replace_loop];
    rewrite (strstr_ok s a b ts old R Ro); cbn [ofo rbind].
  - destruct b; [|cbn in Hb; lia]. destruct old as [|o old]; [congruence|]. cbn [index_sub is_prefix option_map].
    exists s. split; auto. rewrite (replaced_nil _ _ _ _ Ho HR eq_refl). exact R.
  - destruct (index_sub old b) as [k|] eqn:E; cbn [option_map].
    + apply index_sub_some in E. destruct E as (Hk0 & (u & v & -> & Hu) & Hfirst).
      assert (k = zlen u) by (unfold zlen; lia). subst k.
      inversion HR as [l Hno El Er|u' v' r' Hf' HR' El Er].
      { exfalso. apply Hno. exists (length u), u, v. auto. }
      assert (Huu : u' = u /\ v' = v).
      { assert (Hl : length u' = length u).
        { destruct (Nat.lt_trichotomy (length u') (length u)) as [H|[H|H]]; auto; exfalso.
          - apply (Hfirst (length u')); [lia|]. exists u', v'. auto.
          - apply (Hf' (length u)); auto. rewrite El. exists u, v. auto. }
        assert (u' = u).
        { apply (f_equal (firstn (length u))) in El. rewrite <- Hl in El at 1.
          rewrite !firstn_app, Hl, !Nat.sub_diag, !firstn_O, !app_nil_r in El.
          rewrite <- Hl in El at 1. now rewrite !firstn_all in El. }
        subst u'. apply app_inv_head in El. apply app_inv_head in El. auto. }
      destruct Huu; subst u' v' r. clear El.
      rewrite <- zlen_app, (sr_count _ _ Ro). rewrite app_assoc in R.
      destruct (setSub_ok s (a ++ u) old v tn new R Rn) as (s1 & Es & Rs).
      { intros H. apply app_eq_nil in H. destruct H; congruence. }
      { intros H. apply Hne. apply app_eq_nil in H. destruct H as [H1 H2]. apply app_eq_nil in H1, H2.
        destruct H1 as [-> ->]. destruct H2 as [-> ->]. rewrite (replaced_nil _ _ _ _ Ho HR' eq_refl). reflexivity. }
      rewrite Es. cbn [rbind]. rewrite (sr_count _ _ Rn), <- zlen_app.
      destruct (IH v ((a ++ u) ++ new) s1 r') with (fuel := fuel) as (s2 & E2 & R2); auto.
      { rewrite !app_length in Hb. destruct old; [congruence|]. cbn in Hb. lia. }
      { now rewrite <- app_assoc. }
      { now rewrite <- !app_assoc. }
      { lia. }
      exists s2. split; auto. now rewrite <- !app_assoc in R2.
    + exists s. split; auto. inversion HR as [l Hno El Er|u' v' r' Hf' HR' El Er]; subst.
      * exact R.
      * exfalso. apply index_sub_none in E. apply E. exists (length u'), u', v'. auto.
Qed.

(** Existence and uniqueness of the replaced string. *)
Lemma replaced_exists old new : old <> [] -> forall n l, (length l <= n)%nat -> exists r, replaced old new l r.
Proof.
  intros Ho n; induction n as [|n IH]; intros l Hl.
  - destruct l; [|cbn in Hl; lia]. exists []. constructor. intros [i O]. apply occurs_at_nil in O. tauto.
  - destruct (index_sub old l) as [k|] eqn:E.
    + apply index_sub_some in E. destruct E as (_ & (u & v & -> & Hu) & Hfirst).
      destruct (IH v) as [r Hr].
      { rewrite !app_length in Hl. destruct old; [congruence|]. cbn in Hl. lia. }
      exists (u ++ new ++ r). constructor; auto. intros i Hi. apply Hfirst. lia.
    + exists l. constructor. now apply index_sub_none.
Qed.

(** If the result is empty (and something was replaced), the call throws. *)
Lemma replace_loop_throws ts old tn : srep ts old -> srep tn [] -> old <> [] ->
  forall n b s, (length b <= n)%nat -> srep s b -> replaced old [] b [] -> b <> [] ->
  forall fuel, (n < fuel)%nat -> replace_loop fuel s ts tn 0 = Thr.
Proof.
  intros Ro Rn Ho n; induction n as [|n IH]; intros b s Hb R HR Hne [|fuel] Hf; try lia; cbn [replace_loop].
  - destruct b; [congruence|cbn in Hb; lia].
  - pose proof (strstr_ok s [] b ts old R Ro) as W. rewrite zlen_nil in W. rewrite W. cbn [ofo rbind]. clear W.
    destruct (index_sub old b) as [k|] eqn:E; cbn [option_map].
    + apply index_sub_some in E. destruct E as (Hk0 & (u & v & -> & Hu) & Hfirst).
      assert (k = zlen u) by (unfold zlen; lia). subst k.
      inversion HR as [l Hno El Er|u' v' r' Hf' HR' El Er].
      { exfalso. apply Hno. exists (length u), u, v. auto. }
      apply app_eq_nil in Er. destruct Er as [-> Er]. cbn [app] in El, Hf', Er, HR'. subst r'.
      assert (u = []).
      { destruct u as [|x u]; auto. exfalso. apply (Hfirst 0%nat); [unfold zlen; cbn; lia|].
        rewrite <- El. exists [], v'. auto. }
      subst u. cbn [app] in El. apply app_inv_head in El. subst v'.
      rewrite zlen_nil. change (0 + 0) with 0. rewrite (sr_count _ _ Ro).
      destruct v as [|y v].
      * rewrite app_nil_r in *. cbn [app] in R. rewrite (setSub_empty s old tn R Rn). reflexivity.
      * destruct (setSub_ok s [] old (y :: v) tn [] R Rn) as (s1 & Es & Rs).
        { intros H. apply app_eq_nil in H. destruct H; congruence. }
        { discriminate. }
        rewrite zlen_nil in Es. rewrite Es. cbn [rbind]. rewrite (sr_count _ _ Rn), zlen_nil. change (0 + 0) with 0.
        apply (IH (y :: v) s1); auto; try discriminate; try lia.
        rewrite !app_length in Hb. destruct old; [congruence|]. cbn in *. lia.
    + exfalso. apply index_sub_none in E. inversion HR as [l Hno El Er|u' v' r' Hf' HR' El Er]; subst.
      * congruence.
      * apply E. exists (length u'), u', v'. auto.
Qed.
